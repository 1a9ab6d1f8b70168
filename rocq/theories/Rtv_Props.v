(** C190: what can be explained by the choice of one parameter *)
From Coq Require Import ZArith Reals Ranalysis5 Bool Lia Lra Arith List String.
From Verif Require Import Base RT_Model RT_Spec Fit_Model Fit_Spec Fit_Proofs Fit2_Proofs Fit3_Proofs Fit4_Proofs Res_Model Res_Spec Res_Proofs Res_Props Dns_Spec Nfr_Spec Nfr_Props Rtv_Spec.
Import ListNotations.
Local Open Scope R_scope.

Lemma tau_form o v : RT_Spec.total (set_tau o v) = (bsf o + (1 - bsf o) * exp (- (v * (/ cos (t_0 o) + / cos (t_ex o))))) * bare_surface o + (1 - bsf o) * (1 - exp (- (v * (/ cos (t_0 o) + / cos (t_ex o))))) * half_space o.
Proof.
  rewrite total_form. change (bsf (set_tau o v)) with (bsf o). change (bare_surface (set_tau o v)) with (bare_surface o). change (half_space (set_tau o v)) with (half_space o).
  assert (A : att (set_tau o v) = exp (- (v * (/ cos (t_0 o) + / cos (t_ex o))))) by (unfold att; f_equal; change (t_0 (set_tau o v)) with (t_0 o); change (t_ex (set_tau o v)) with (t_ex o); cbn [V set_tau set_V tau]; unfold Rdiv; ring).
  rewrite A. reflexivity.
Qed.
(** the backscatter lies between that of the bare surface and that of an infinitely thick layer *)
Theorem C190_between : forall o, 0 < cos (t_0 o) -> 0 < cos (t_ex o) -> 0 <= bsf o <= 1 -> 0 <= tau (V o) -> between (bare_surface o) (RT_Spec.total o) (half_space o).
Proof.
  intros o H0 H1 Hb Ht. rewrite total_form. assert (A : 0 < att o <= 1).
  { split; [apply exp_pos|]. unfold att. rewrite <- exp_0.
    assert (0 <= tau (V o) / cos (t_0 o)) by (apply Rmult_le_pos; [lra|left; apply Rinv_0_lt_compat; lra]). assert (0 <= tau (V o) / cos (t_ex o)) by (apply Rmult_le_pos; [lra|left; apply Rinv_0_lt_compat; lra]).
    destruct (Req_dec (- (tau (V o) / cos (t_0 o)) - tau (V o) / cos (t_ex o)) 0) as [->|N]; [lra|]. left. apply exp_increasing. lra. }
  set (a := att o) in *. set (b := bsf o) in *. set (B := bare_surface o). set (H := half_space o). clearbody a b B H.
  set (w := b + (1 - b) * a). assert (Hw : 0 <= w <= 1) by (unfold w; split; nra).
  replace (w * B + (1 - b) * (1 - a) * H) with (w * B + (1 - w) * H) by (unfold w; ring).
  unfold between. clearbody w. destruct (Rle_dec B H) as [L|L]; [left; assert (0 <= (1 - w) * (H - B)) by (apply Rmult_le_pos; lra); assert (0 <= w * (H - B)) by (apply Rmult_le_pos; lra); split; lra|].
  right. assert (0 <= (1 - w) * (B - H)) by (apply Rmult_le_pos; lra). assert (0 <= w * (B - H)) by (apply Rmult_le_pos; lra). split; lra.
Qed.
Print Assumptions C190_between.

(** ... and comes nearer to the latter when the optical depth grows *)
Theorem C190_towards : forall o v w, 0 < cos (t_0 o) -> 0 < cos (t_ex o) -> bsf o < 1 -> v < w ->
  (bare_surface o < half_space o -> RT_Spec.total (set_tau o v) < RT_Spec.total (set_tau o w)) /\
  (half_space o < bare_surface o -> RT_Spec.total (set_tau o w) < RT_Spec.total (set_tau o v)) /\
  (bare_surface o = half_space o -> RT_Spec.total (set_tau o v) = RT_Spec.total (set_tau o w)).
Proof.
  intros o v w H0 H1 Hb Hvw. rewrite !tau_form. set (k := / cos (t_0 o) + / cos (t_ex o)).
  assert (Hk : 0 < k) by (unfold k; assert (0 < / cos (t_0 o)) by (apply Rinv_0_lt_compat; lra); assert (0 < / cos (t_ex o)) by (apply Rinv_0_lt_compat; lra); lra).
  assert (E : exp (- (w * k)) < exp (- (v * k))) by (apply exp_increasing; nra).
  set (a := exp (- (v * k))) in *. set (c := exp (- (w * k))) in *. set (B := bare_surface o). set (H := half_space o). clearbody a c B H. set (b := bsf o) in *. clearbody b.
  assert (P : 0 < (1 - b) * (a - c)) by (apply Rmult_lt_0_compat; lra).
  split; [|split]; intros Hx; nra.
Qed.
Print Assumptions C190_towards.

(** a backscatter can be explained by an optical depth exactly if it lies between bare surface (included) and dense vegetation (excluded) *)
Theorem C190_tau : forall o s, 0 < cos (t_0 o) -> 0 < cos (t_ex o) -> bsf o < 1 -> bare_surface o <> half_space o ->
  let dense := bsf o * bare_surface o + (1 - bsf o) * half_space o in
  ((exists v, 0 <= v /\ RT_Spec.total (set_tau o v) = s) <-> between (bare_surface o) s dense /\ s <> dense).
Proof.
  intros o s H0 H1 Hb Hne dense. set (k := / cos (t_0 o) + / cos (t_ex o)).
  assert (Hk : 0 < k) by (unfold k; assert (0 < / cos (t_0 o)) by (apply Rinv_0_lt_compat; lra); assert (0 < / cos (t_ex o)) by (apply Rinv_0_lt_compat; lra); lra).
  assert (F : forall v, RT_Spec.total (set_tau o v) = dense + exp (- (v * k)) * ((1 - bsf o) * (bare_surface o - half_space o))) by (intros v; rewrite tau_form; fold k; unfold dense; ring).
  set (D := (1 - bsf o) * (bare_surface o - half_space o)) in *. assert (HD : D <> 0) by (apply Rmult_integral_contrapositive_currified; lra).
  assert (EB : bare_surface o = dense + D) by (unfold dense, D; ring). rewrite EB. clearbody dense D. clear EB Hne. split.
  - intros (v & Hv & <-). rewrite F. assert (A : 0 < exp (- (v * k)) <= 1).
    { split; [apply exp_pos|]. rewrite <- exp_0. destruct (Req_dec v 0) as [->|N]; [rewrite Rmult_0_l, Ropp_0; lra|]. left. apply exp_increasing. nra. }
    set (a := exp (- (v * k))) in *. clearbody a. split; [unfold between; destruct (Rle_dec 0 D); [right|left]; split; nra|]. intros E. assert (Q : a * D = 0) by lra. apply Rmult_integral in Q. lra.
  - intros [Hb2 Hs]. set (r := (s - dense) / D). assert (Er : s = dense + r * D) by (unfold r; field; exact HD).
    assert (Hr : 0 < r <= 1).
    { destruct (Rlt_dec 0 D) as [P|N].
      - assert (D <> 0) by lra. destruct Hb2 as [[A B]|[A B]].
        + exfalso. lra.
        + split; nra.
      - assert (D < 0) by lra. destruct Hb2 as [[A B]|[A B]]; [split; nra|exfalso; lra]. }
    exists (- ln r / k). split.
    + assert (ln r <= 0) by (rewrite <- ln_1; destruct (Req_dec r 1) as [->|Nr]; [lra|left; apply ln_increasing; lra]). apply Rmult_le_pos; [lra|left; apply Rinv_0_lt_compat; exact Hk].
    + rewrite F. replace (- (- ln r / k * k)) with (ln r) by (field; lra). rewrite exp_ln by lra. symmetry. exact Er.
Qed.
Print Assumptions C190_tau.

(** ... by a single scattering albedo, a normalisation of the surface or a bare fraction in an interval exactly if it lies between the values at the ends *)
Definition affine_key (key : string) : Prop := In key ["omega"; "NormBRDF"; "bsf"]%string.
Lemma affine_form key o : affine_key key -> exists a b, forall v, RT_Spec.total (with_key o key v) = a + b * v.
Proof.
  intros [<-|[<-|[<-|[]]]].
  - exists ((bsf o + (1 - bsf o) * att o) * bare_surface o), ((1 - bsf o) * (1 - att o) * (I0 o * cos (t_0 o) / (cos (t_0 o) + cos (t_ex o)) * p_val o)). intros v. rewrite total_form.
    change ((bsf o + (1 - bsf o) * att o) * bare_surface o + (1 - bsf o) * (1 - att o) * (I0 o * v * cos (t_0 o) / (cos (t_0 o) + cos (t_ex o)) * p_val o) = (bsf o + (1 - bsf o) * att o) * bare_surface o + (1 - bsf o) * (1 - att o) * (I0 o * cos (t_0 o) / (cos (t_0 o) + cos (t_ex o)) * p_val o) * v). unfold Rdiv. ring.
  - exists ((1 - bsf o) * (1 - att o) * half_space o), ((bsf o + (1 - bsf o) * att o) * (I0 o * cos (t_0 o) * brdf_val o)). intros v. rewrite total_form.
    change ((bsf o + (1 - bsf o) * att o) * (v * (I0 o * cos (t_0 o) * brdf_val o)) + (1 - bsf o) * (1 - att o) * half_space o = (1 - bsf o) * (1 - att o) * half_space o + (bsf o + (1 - bsf o) * att o) * (I0 o * cos (t_0 o) * brdf_val o) * v). ring.
  - exists (att o * bare_surface o + (1 - att o) * half_space o), ((1 - att o) * (bare_surface o - half_space o)). intros v. rewrite total_form.
    change ((v + (1 - v) * att o) * bare_surface o + (1 - v) * (1 - att o) * half_space o = att o * bare_surface o + (1 - att o) * half_space o + (1 - att o) * (bare_surface o - half_space o) * v). ring.
Qed.
Theorem C190_affine : forall key o s lo hi, affine_key key -> lo <= hi ->
  ((exists v, lo <= v <= hi /\ RT_Spec.total (with_key o key v) = s) <-> between (RT_Spec.total (with_key o key lo)) s (RT_Spec.total (with_key o key hi))).
Proof.
  intros key o s lo hi Hk Hlh. destruct (affine_form key o Hk) as (a & b & F). rewrite !F. split.
  - intros (v & Hv & <-). rewrite F. unfold between. destruct (Rle_dec 0 b); [left|right]; split; nra.
  - intros Hs. destruct (Req_dec b 0) as [->|Nb].
    + exists lo. split; [lra|]. rewrite F. destruct Hs as [[A B]|[A B]]; lra.
    + exists ((s - a) / b). rewrite F. split; [|field; exact Nb]. set (v := (s - a) / b). assert (Ev : s = a + b * v) by (unfold v; field; exact Nb). clearbody v. subst s. destruct Hs as [[A B]|[A B]].
      * destruct (Rlt_dec 0 b); [split; nra|]. assert (lo = hi) by nra. assert (b * (v - lo) = 0) by (subst hi; lra). apply Rmult_integral in H0. subst hi. lra.
      * destruct (Rlt_dec 0 b); [|split; nra]. assert (lo = hi) by nra. assert (b * (v - lo) = 0) by (subst hi; lra). apply Rmult_integral in H0. subst hi. lra.
Qed.
Print Assumptions C190_affine.

Lemma sensitive_key key o : sensitive key o -> key = "tau"%string \/ affine_key key.
Proof.
  intros (_ & _ & S). unfold affine_key. destruct (string_dec key "omega") as [->|Nw]; [right; cbn; auto|]. destruct (string_dec key "tau") as [->|Nt]; [left; reflexivity|].
  destruct (string_dec key "NormBRDF") as [->|Nn]; [right; cbn; auto|]. destruct (string_dec key "bsf") as [->|Nb]; [right; cbn; auto|].
  exfalso. revert S Nw Nt Nn Nb. repeat (match goal with |- context [match ?k with _ => _ end] => destruct k end; try (intros []; fail)); congruence.
Qed.
Lemma total_cont key o v : sensitive key o -> continuity_pt (fun v => RT_Spec.total (with_key o key v)) v.
Proof.
  intros S. destruct (sensitive_key key o S) as [->|A].
  - apply (continuity_pt_locally_ext (fun v => (bsf o + (1 - bsf o) * exp (- (v * (/ cos (t_0 o) + / cos (t_ex o))))) * bare_surface o + (1 - bsf o) * (1 - exp (- (v * (/ cos (t_0 o) + / cos (t_ex o))))) * half_space o) _ 1 v Rlt_0_1).
    + intros y _. symmetry. apply tau_form.
    + reg.
  - destruct (affine_form key o A) as (a & b & F). apply (continuity_pt_locally_ext (fun v => a + b * v) _ 1 v Rlt_0_1); [intros y _; symmetry; apply F|reg].
Qed.
Definition seen_value (dB sig0 : bool) (key : string) (o : RT) (v : R) : R := in_units dB sig0 (t_0 o) (RT_Spec.total (with_key o key v)).
Lemma value_cont dB sig0 key o v : sensitive key o -> (dB = true -> 0 < RT_Spec.total (with_key o key v)) -> continuity_pt (seen_value dB sig0 key o) v.
Proof.
  intros S Hp. pose proof (total_cont key o v S) as C. unfold seen_value, in_units. cbv zeta.
  assert (D : continuity_pt (fun v => if sig0 then 4 * PI * cos (t_0 o) * RT_Spec.total (with_key o key v) else RT_Spec.total (with_key o key v)) v).
  { destruct sig0; [|exact C]. apply (continuity_pt_scal (fun v => RT_Spec.total (with_key o key v)) (4 * PI * cos (t_0 o)) v C). }
  destruct dB; [|exact D]. assert (P : 0 < (if sig0 then 4 * PI * cos (t_0 o) * RT_Spec.total (with_key o key v) else RT_Spec.total (with_key o key v))).
  { specialize (Hp eq_refl). destruct sig0; [|exact Hp]. apply Rmult_lt_0_compat; [|exact Hp]. apply Rmult_lt_0_compat; [|apply S]. pose proof PI_RGT_0. lra. }
  apply (continuity_pt_scal (fun x => ln (if sig0 then 4 * PI * cos (t_0 o) * RT_Spec.total (with_key o key x) else RT_Spec.total (with_key o key x)) / ln 10) 10 v).
  apply (continuity_pt_locally_ext (fun x => / ln 10 * ln (if sig0 then 4 * PI * cos (t_0 o) * RT_Spec.total (with_key o key x) else RT_Spec.total (with_key o key x))) _ 1 v Rlt_0_1).
  { intros x _. unfold Rdiv. ring. }
  apply (continuity_pt_scal (fun x => ln (if sig0 then 4 * PI * cos (t_0 o) * RT_Spec.total (with_key o key x) else RT_Spec.total (with_key o key x))) (/ ln 10) v).
  apply (continuity_pt_comp (fun x => if sig0 then 4 * PI * cos (t_0 o) * RT_Spec.total (with_key o key x) else RT_Spec.total (with_key o key x)) ln v D).
  apply derivable_continuous_pt. exists (/ (if sig0 then 4 * PI * cos (t_0 o) * RT_Spec.total (with_key o key v) else RT_Spec.total (with_key o key v))). apply derivable_pt_lim_ln, P.
Qed.
Lemma value_inj dB sig0 key o lo hi v w : sensitive key o -> (dB = true -> forall u, lo <= u <= hi -> 0 < RT_Spec.total (with_key o key u)) ->
  lo <= v <= hi -> lo <= w <= hi -> seen_value dB sig0 key o v = seen_value dB sig0 key o w -> v = w.
Proof. intros S Hp Hv Hw E. apply (C189_sensitive key o v w S). apply (units_inj dB sig0 (t_0 o)); [apply S|intros Hd; split; apply (Hp Hd); assumption|exact E]. Qed.

(** continuous injective functions *)
Lemma best_exists f s lo hi : lo <= hi -> (forall v, lo <= v <= hi -> continuity_pt f v) -> exists v, best_in f s lo hi v.
Proof.
  intros H C. destruct (continuity_ab_min (fun v => Rabs (f v - s)) lo hi H) as (v & M & I).
  { intros v Hv. apply (continuity_pt_comp (fun v => f v - s) Rabs v); [|apply Rcontinuity_abs]. apply (continuity_pt_minus f (fun _ => s) v (C v Hv)). apply continuity_pt_const. intros x y. reflexivity. }
  exists v. split; [exact I|]. intros w Hw. apply (M w Hw).
Qed.
Lemma crossing f s a b : a < b -> (forall v, a <= v <= b -> continuity_pt f v) -> (f a - s) * (f b - s) < 0 -> exists u, a <= u <= b /\ f u = s.
Proof.
  intros H C N. destruct (Rlt_dec (f a - s) 0) as [L|L].
  - assert (0 < f b - s) by nra. destruct (IVT_interv (fun v => f v - s) a b) as (u & U1 & U2); [|exact H|exact L|exact H0|exists u; split; [exact U1|lra]].
    intros v Hv. apply (continuity_pt_minus f (fun _ => s) v (C v Hv)). apply continuity_pt_const. intros x y. reflexivity.
  - assert (L2 : 0 < f a - s) by (destruct (Req_dec (f a - s) 0) as [Z|Z]; [rewrite Z in N; lra|lra]). assert (L1 : f b - s < 0) by nra. destruct (IVT_interv (fun v => s - f v) a b) as (u & U1 & U2); [|exact H|lra|lra|exists u; split; [exact U1|lra]].
    intros v Hv. apply (continuity_pt_minus (fun _ => s) f v); [|exact (C v Hv)]. apply continuity_pt_const. intros x y. reflexivity.
Qed.
Lemma best_unique f s lo hi v w : (forall v, lo <= v <= hi -> continuity_pt f v) -> (forall v w, lo <= v <= hi -> lo <= w <= hi -> f v = f w -> v = w) ->
  best_in f s lo hi v -> best_in f s lo hi w -> v = w.
Proof.
  intros C J [Hv Mv] [Hw Mw]. assert (E : Rabs (f v - s) = Rabs (f w - s)) by (apply Rle_antisym; [apply Mv|apply Mw]; assumption).
  destruct (Req_dec (f v) (f w)) as [F|F]; [apply J; assumption|]. exfalso.
  assert (O : f v - s = - (f w - s)) by (unfold Rabs in E; destruct (Rcase_abs (f v - s)), (Rcase_abs (f w - s)); lra).
  assert (Z : f v - s <> 0) by lra. assert (N : (f v - s) * (f w - s) < 0) by (rewrite O; assert (0 < (f w - s) * (f w - s)) by (apply Rsqr_pos_lt; lra); lra).
  assert (Q : exists u, lo <= u <= hi /\ f u = s).
  { destruct (Rtotal_order v w) as [L|[L|L]].
    - destruct (crossing f s v w L) as (u & U & Eu); [intros; apply C; lra|exact N|exists u; split; [lra|exact Eu]].
    - subst w. lra.
    - destruct (crossing f s w v L) as (u & U & Eu); [intros; apply C; lra|lra|exists u; split; [lra|exact Eu]]. }
  destruct Q as (u & U & Eu). specialize (Mv u U). rewrite Eu, (Rminus_diag_eq s s eq_refl), Rabs_R0 in Mv. assert (0 < Rabs (f v - s)) by (apply Rabs_pos_lt; exact Z). lra.
Qed.

(** one measurement: within the bounds there is exactly one best value of the parameter; it explains the measurement if the measurement
    lies between the values of the model at the bounds *)
Theorem C190_best : forall dB sig0 key o s lo hi, sensitive key o -> lo <= hi ->
  (dB = true -> forall u, lo <= u <= hi -> 0 < RT_Spec.total (with_key o key u)) ->
  let f := fun v => rt1_model dB sig0 key [Some v] o in
  exists v, best_in f s lo hi v /\ (forall w, best_in f s lo hi w -> w = v) /\ (between (f lo) s (f hi) -> f v = s).
Proof.
  intros dB sig0 key o s lo hi S Hlh Hp f. change f with (seen_value dB sig0 key o). clear f.
  assert (C : forall v, lo <= v <= hi -> continuity_pt (seen_value dB sig0 key o) v) by (intros v Hv; apply value_cont; [exact S|intros Hd; apply (Hp Hd v Hv)]).
  destruct (best_exists (seen_value dB sig0 key o) s lo hi Hlh C) as (v & B). exists v. split; [exact B|]. split.
  - intros w Bw. apply (best_unique (seen_value dB sig0 key o) s lo hi); try assumption. intros a b Ha Hb. apply (value_inj dB sig0 key o lo hi); assumption.
  - intros Hs. assert (Q : exists u, lo <= u <= hi /\ seen_value dB sig0 key o u = s).
    { destruct (Req_dec (seen_value dB sig0 key o lo) s) as [E1|N1]; [exists lo; split; [lra|exact E1]|]. destruct (Req_dec (seen_value dB sig0 key o hi) s) as [E2|N2]; [exists hi; split; [lra|exact E2]|].
      assert (lo < hi) by (destruct Hlh as [L|L]; [exact L|subst hi; destruct Hs as [Hs|Hs]; lra]).
      apply crossing; [assumption|exact C|]. destruct Hs as [[A1 A2]|[A1 A2]].
      - assert (0 < (s - seen_value dB sig0 key o lo) * (seen_value dB sig0 key o hi - s)) by (apply Rmult_lt_0_compat; lra). lra.
      - assert (0 < (seen_value dB sig0 key o lo - s) * (s - seen_value dB sig0 key o hi)) by (apply Rmult_lt_0_compat; lra). lra. }
    destruct Q as (u & U & Eu). destruct B as [_ M]. specialize (M u U). rewrite Eu, (Rminus_diag_eq s s eq_refl), Rabs_R0 in M.
    destruct (Req_dec (seen_value dB sig0 key o v - s) 0) as [Z|Z]; [lra|]. apply Rabs_pos_lt in Z. lra.
Qed.
Print Assumptions C190_best.

Lemma uniq_id c : NoDup c -> uniq c = c.
Proof.
  induction 1 as [|x l N _ IH]; [reflexivity|]. cbn. rewrite IH. f_equal. clear IH. induction l as [|y l IH]; [reflexivity|]. cbn. destruct (Z.eqb_spec y x) as [->|Ne]; [elim N; left; reflexivity|]. cbn. f_equal. apply IH. intros I. apply N. right. exact I.
Qed.
Lemma choose_list (P : nat -> R -> Prop) n : (forall i, (i < n)%nat -> exists v, P i v) -> exists y, List.length y = n /\ forall i, (i < n)%nat -> P i (nth i y 0).
Proof.
  induction n as [|n IH]; intros H; [exists []; split; [reflexivity|intros; lia]|]. destruct IH as (y & L & Y); [intros; apply H; lia|]. destruct (H n) as (v & Hv); [lia|].
  exists (y ++ [v]). split; [rewrite app_length; cbn; lia|]. intros i Hi. destruct (Nat.eq_dec i n) as [->|Nn]; [rewrite app_nth2, L, Nat.sub_diag by lia; exact Hv|rewrite app_nth1 by lia; apply Y; lia].
Qed.
Lemma sumR_le (f g : nat -> R) l : (forall i, In i l -> f i <= g i) -> sumR (map f l) <= sumR (map g l).
Proof. induction l as [|i l IH]; intros H; cbn; [lra|]. assert (f i <= g i) by (apply H; left; reflexivity). assert (sumR (map f l) <= sumR (map g l)) by (apply IH; intros; apply H; right; assumption). unfold sumR in *. lra. Qed.
Lemma sumR_le_eq (f g : nat -> R) l : (forall i, In i l -> f i <= g i) -> sumR (map g l) <= sumR (map f l) -> forall i, In i l -> f i = g i.
Proof.
  induction l as [|j l IH]; intros H E i I; [destruct I|]. cbn in E. assert (f j <= g j) by (apply H; left; reflexivity).
  assert (L : sumR (map f l) <= sumR (map g l)) by (apply sumR_le; intros; apply H; right; assumption). unfold sumR in *. destruct I as [->|I]; [lra|]. apply IH; [intros; apply H; right; assumption|lra|exact I].
Qed.
Lemma one_each dB sig0 key gi index rows sig weights c y o0 :
  gi <> [] -> List.length index = List.length gi -> List.length rows = List.length gi -> List.length sig = List.length gi ->
  (forall w, weights = Some w -> List.length w = List.length gi) -> refines gi c -> NoDup c -> List.length y = List.length c ->
  is_cost RT (rt1_model dB sig0 key) gi index rows sig weights [c] y
    (sumR (map (fun i => Rsqr (weight weights i * (seen_value dB sig0 key (nth i rows o0) (nth i y 0) - nth i sig 0))) (seq 0 (List.length gi)))).
Proof.
  intros H1 H2 H3 H4 H5 Rf Nd Ly.
  assert (Vy : vector_of [c] [y] y) by (split; cbn; [apply app_nil_r|rewrite (uniq_id c Nd), Ly; reflexivity]).
  assert (H6 : forall d, In d [c] -> refines gi d) by (intros d [<-|[]]; exact Rf).
  pose proof (cost_form RT (rt1_model dB sig0 key) gi index rows sig weights [c] [y] y o0 H1 H2 H3 H4 H5 H6 Vy) as D.
  match type of D with is_cost _ _ _ _ _ _ _ _ _ ?a => match goal with |- is_cost _ _ _ _ _ _ _ _ _ ?b => replace b with a; [exact D|] end end.
  f_equal. apply map_ext_in. intros i Hi. apply in_seq in Hi. do 3 f_equal. cbn [combine map rt1_model]. unfold seen_value. do 3 f_equal. unfold value_at. cbn [fst snd]. f_equal.
  unfold rank. rewrite (uniq_id c Nd). apply number_of_nth; [exact Nd|]. destruct Rf as [Lc _]. lia.
Qed.

(** a parameter with one value per measurement: within the bounds there is exactly one best fit, measurement by measurement the best value *)
Theorem C190_fit : forall dB sig0 key gi index rows sig weights c lo hi o0,
  gi <> [] -> List.length index = List.length gi -> List.length rows = List.length gi -> List.length sig = List.length gi ->
  (forall w, weights = Some w -> List.length w = List.length gi) -> refines gi c -> NoDup c ->
  List.length lo = List.length gi -> List.length hi = List.length gi ->
  (forall i, (i < List.length gi)%nat -> nth i lo 0 <= nth i hi 0 /\ sensitive key (nth i rows o0) /\ weight weights i <> 0 /\
     (dB = true -> forall u, nth i lo 0 <= u <= nth i hi 0 -> 0 < RT_Spec.total (with_key (nth i rows o0) key u))) ->
  exists y, best_fit dB sig0 key gi index rows sig weights c lo hi y /\ (forall z, best_fit dB sig0 key gi index rows sig weights c lo hi z -> z = y) /\
    forall i, (i < List.length gi)%nat -> best_in (fun v => rt1_model dB sig0 key [Some v] (nth i rows o0)) (nth i sig 0) (nth i lo 0) (nth i hi 0) (nth i y 0).
Proof.
  intros dB sig0 key gi index rows sig weights c lo hi o0 H1 H2 H3 H4 H5 Rf Nd Llo Lhi Hi.
  destruct (choose_list (fun i v => best_in (seen_value dB sig0 key (nth i rows o0)) (nth i sig 0) (nth i lo 0) (nth i hi 0) v) (List.length gi)) as (y & Ly & By).
  { intros i Hn. destruct (Hi i Hn) as (A & B & _ & D). destruct (C190_best dB sig0 key (nth i rows o0) (nth i sig 0) _ _ B A D) as (v & Bv & _). exists v. exact Bv. }
  assert (Lc : List.length c = List.length gi) by (symmetry; apply Rf).
  assert (Iy : in_box lo hi y) by (split; [congruence|]; intros k Hk; apply By; lia).
  assert (Cost : forall z, List.length z = List.length gi -> is_cost RT (rt1_model dB sig0 key) gi index rows sig weights [c] z
      (sumR (map (fun i => Rsqr (weight weights i * (seen_value dB sig0 key (nth i rows o0) (nth i z 0) - nth i sig 0))) (seq 0 (List.length gi))))) by (intros z Lz; apply one_each; auto; congruence).
  assert (Term : forall z, in_box lo hi z -> forall i, In i (seq 0 (List.length gi)) ->
      Rsqr (weight weights i * (seen_value dB sig0 key (nth i rows o0) (nth i y 0) - nth i sig 0)) <= Rsqr (weight weights i * (seen_value dB sig0 key (nth i rows o0) (nth i z 0) - nth i sig 0))).
  { intros z [Lz Bz] i Hn. apply in_seq in Hn. rewrite !Rsqr_mult. apply Rmult_le_compat_l; [apply Rle_0_sqr|]. apply Rsqr_le_abs_1. apply By; [lia|]. apply Bz. lia. }
  exists y. split; [|split].
  - split; [exact Iy|]. eexists. split; [apply Cost; exact Ly|]. intros z n Iz Cz. pose proof Iz as [Lz _]. rewrite (cost_fun _ _ _ _ _ _ _ _ _ _ _ Cz (Cost z ltac:(congruence))). apply sumR_le. apply Term. exact Iz.
  - intros z (Iz & m & Cz & Mz). pose proof Iz as [Lz Bz]. apply (nth_ext _ _ 0 0); [congruence|]. intros i Hn. rewrite Lz, Llo in Hn.
    specialize (Mz y _ Iy (Cost y Ly)). rewrite (cost_fun _ _ _ _ _ _ _ _ _ _ _ Cz (Cost z ltac:(congruence))) in Mz.
    assert (E := sumR_le_eq _ _ _ (Term z Iz) Mz i ltac:(apply in_seq; lia)). cbv beta in E. rewrite !Rsqr_mult in E. destruct (Hi i Hn) as (A & S & W & D).
    apply Rmult_eq_reg_l in E; [|intros Z; apply Rsqr_eq_0 in Z; exact (W Z)]. apply Rsqr_eq_abs_0 in E.
    destruct (C190_best dB sig0 key (nth i rows o0) (nth i sig 0) _ _ S A D) as (v & Bv & U & _).
    transitivity v; [|symmetry]; apply U; [|exact (By i Hn)]. split; [apply Bz; lia|]. intros w Hw. change (Rabs (seen_value dB sig0 key (nth i rows o0) (nth i z 0) - nth i sig 0) <= Rabs (seen_value dB sig0 key (nth i rows o0) w - nth i sig 0)).
    rewrite <- E. apply (By i Hn). exact Hw.
  - intros i Hn. exact (By i Hn).
Qed.
Print Assumptions C190_fit.

Lemma value_affine sig0 key o : affine_key key -> exists a b, forall v, seen_value false sig0 key o v = a + b * v.
Proof.
  intros A. destruct (affine_form key o A) as (a & b & F). unfold seen_value, in_units. cbv zeta. destruct sig0.
  - exists (4 * PI * cos (t_0 o) * a), (4 * PI * cos (t_0 o) * b). intros v. rewrite F. ring.
  - exists a, b. exact F.
Qed.
Lemma sumR_lin (f g h : nat -> R) l : (forall i, In i l -> h i = f i / 2 + g i / 2) -> sumR (map h l) = sumR (map f l) / 2 + sumR (map g l) / 2.
Proof. induction l as [|i l IH]; intros H; cbn; [lra|]. rewrite (H i) by (left; reflexivity). unfold sumR in IH. rewrite IH by (intros; apply H; right; assumption). lra. Qed.
Lemma sumR_plus (f g : nat -> R) l : sumR (map (fun i => f i + g i) l) = sumR (map f l) + sumR (map g l).
Proof. induction l as [|i l IH]; cbn; [lra|]. unfold sumR in IH. rewrite IH. lra. Qed.

(** linear units, any number of measurements per value, a parameter that enters linearly: there are no two best fits *)
Theorem C190_linear_fit : forall sig0 key gi index rows sig weights c lo hi y z o0,
  gi <> [] -> List.length index = List.length gi -> List.length rows = List.length gi -> List.length sig = List.length gi ->
  (forall w, weights = Some w -> List.length w = List.length gi) -> refines gi c ->
  List.length lo = List.length (uniq c) -> affine_key key -> seen key rows o0 weights c ->
  best_fit false sig0 key gi index rows sig weights c lo hi y -> best_fit false sig0 key gi index rows sig weights c lo hi z -> y = z.
Proof.
  intros sig0 key gi index rows sig weights c lo hi y z o0 H1 H2 H3 H4 H5 Rf Llo Ak Se (Iy & m & Cy & My) (Iz & n & Cz & Mz).
  assert (H6 : forall d, In d [c] -> refines gi d) by (intros d [<-|[]]; exact Rf).
  set (G := fun (y : list R) i => Rsqr (weight weights i * (seen_value false sig0 key (nth i rows o0) (value_at 0 (c, y) i) - nth i sig 0))).
  assert (Cost : forall x, List.length x = List.length (uniq c) -> is_cost RT (rt1_model false sig0 key) gi index rows sig weights [c] x (sumR (map (G x) (seq 0 (List.length gi))))).
  { intros x Lx. assert (Vx : vector_of [c] [x] x) by (split; cbn; [apply app_nil_r|rewrite Lx; reflexivity]). exact (cost_form RT (rt1_model false sig0 key) gi index rows sig weights [c] [x] x o0 H1 H2 H3 H4 H5 H6 Vx). }
  pose proof Iy as [Ly By]. pose proof Iz as [Lz Bz].
  set (mid := map (fun p => (fst p + snd p) / 2) (combine y z)).
  assert (Lm : List.length mid = List.length (uniq c)) by (unfold mid; rewrite map_length, combine_length; lia).
  assert (Nm : forall k, nth k mid 0 = (nth k y 0 + nth k z 0) / 2).
  { intros k. unfold mid. destruct (Nat.lt_ge_cases k (List.length y)) as [K|K].
    - rewrite (nth_indep _ 0 ((0 + 0) / 2)) by (rewrite map_length, combine_length; lia). change ((0 + 0) / 2) with ((fun p : R * R => (fst p + snd p) / 2) (0, 0)). rewrite map_nth, combine_nth by lia. reflexivity.
    - rewrite !nth_overflow; try lra; try lia. rewrite map_length, combine_length. lia. }
  assert (Im : in_box lo hi mid). { split; [congruence|]. intros k Hk. rewrite Nm. specialize (By k Hk). specialize (Bz k Hk). lra. }
  rewrite (cost_fun _ _ _ _ _ _ _ _ _ _ _ Cy (Cost y ltac:(congruence))) in *. rewrite (cost_fun _ _ _ _ _ _ _ _ _ _ _ Cz (Cost z ltac:(congruence))) in *.
  assert (M1 := My mid _ Im (Cost mid Lm)). assert (M2 := Mz mid _ Im (Cost mid Lm)).
  set (Q := fun i => Rsqr (weight weights i * (seen_value false sig0 key (nth i rows o0) (value_at 0 (c, y) i) - seen_value false sig0 key (nth i rows o0) (value_at 0 (c, z) i))) / 4).
  assert (Par : sumR (map (fun i => G mid i + Q i) (seq 0 (List.length gi))) = sumR (map (G y) (seq 0 (List.length gi))) / 2 + sumR (map (G z) (seq 0 (List.length gi))) / 2).
  { apply sumR_lin. intros i _. unfold G, Q. destruct (value_affine sig0 key (nth i rows o0) Ak) as (a & b & F). rewrite !F. unfold value_at. cbn [fst snd]. rewrite Nm. unfold Rsqr. field. }
  rewrite sumR_plus in Par. assert (Z : sumR (map Q (seq 0 (List.length gi))) = 0).
  { apply Rle_antisym; [lra|]. apply sumR_nonneg. intros q Iq. apply in_map_iff in Iq. destruct Iq as (i & <- & _). unfold Q. assert (A := Rle_0_sqr (weight weights i * (seen_value false sig0 key (nth i rows o0) (value_at 0 (c, y) i) - seen_value false sig0 key (nth i rows o0) (value_at 0 (c, z) i)))). lra. }
  apply (nth_ext _ _ 0 0); [congruence|]. intros k Hk. assert (Hk' : (k < List.length (uniq c))%nat) by congruence.
  destruct (Se (nth k (uniq c) 0%Z)) as (i & Hi & Ei & Si & Wi); [apply in_uniq, nth_In; exact Hk'|].
  assert (Lc : List.length c = List.length gi) by (symmetry; apply Rf).
  assert (Zi : Q i = 0).
  { apply (sumR_zero (map Q (seq 0 (List.length gi)))); [|exact Z|apply in_map; apply in_seq; lia]. intros q Iq. apply in_map_iff in Iq. destruct Iq as (j & <- & _). unfold Q. assert (A := Rle_0_sqr (weight weights j * (seen_value false sig0 key (nth j rows o0) (value_at 0 (c, y) j) - seen_value false sig0 key (nth j rows o0) (value_at 0 (c, z) j)))). lra. }
  unfold Q in Zi. assert (Zj : Rsqr (weight weights i * (seen_value false sig0 key (nth i rows o0) (value_at 0 (c, y) i) - seen_value false sig0 key (nth i rows o0) (value_at 0 (c, z) i))) = 0) by lra.
  apply Rsqr_eq_0, Rmult_integral in Zj. destruct Zj as [Zj|Zj]; [elim (Wi Zj)|]. unfold value_at in Zj. cbn [fst snd] in Zj. rewrite Ei, rank_nth_self in Zj by exact Hk'.
  apply (C189_sensitive key (nth i rows o0) _ _ Si). apply (units_inj false sig0 (t_0 (nth i rows o0))); [apply Si|discriminate|]. unfold seen_value in Zj. lra.
Qed.
Print Assumptions C190_linear_fit.

(** the scene of C189: the optical depth explains backscatter between soil and canopy, nothing else *)
Example C190_example : let o := nadir (1/2) in
  sensitive "tau" o /\ bare_surface o <> half_space o /\ bsf o < 1 /\ between (bare_surface o) (RT_Spec.total o) (half_space o) /\
  ~ (exists v, 0 <= v /\ RT_Spec.total (set_tau o v) = 2 * bare_surface o) /\ NoDup [4; 7]%Z /\ refines [4; 7]%Z [4; 7]%Z.
Proof.
  intros o. destruct C189_example as [Hs _]. pose proof (Hs "tau"%string ltac:(cbn; auto)) as S. pose proof S as (C1 & C2 & Hb & Hne). cbn in Hb, Hne.
  assert (P : 0 < bare_surface o /\ 0 < half_space o /\ half_space o < bare_surface o).
  { pose proof PI_RGT_0. assert (0 < / PI) by (apply Rinv_0_lt_compat; lra). assert (B : bare_surface o = 1/2 * / PI) by (unfold bare_surface, o; rewrite (proj1 (nadir_cos (1/2))); cbn; field; lra).
    assert (H' : half_space o = 1/40 * / PI) by (unfold half_space, o; destruct (nadir_cos (1/2)) as [-> ->]; cbn; field; lra). rewrite B, H'. lra. }
  split; [exact S|]. split; [exact Hne|]. split; [cbn; lra|]. split; [apply C190_between; [exact C1|exact C2|cbn; lra|cbn; lra]|]. split.
  - intros E. apply (C190_tau o (2 * bare_surface o) C1 C2 ltac:(cbn; lra) Hne) in E. destruct E as [E _]. cbn [bsf o nadir] in E. destruct E as [E|E]; lra.
  - split; [constructor; [cbn; lia|constructor; [intros []|constructor]]|]. split; [reflexivity|]. intros i j _ _ E. exact E.
Qed.
