(** Proofs about the polar plots. *)
From Coq Require Import ZArith Reals List String Bool Lra Lia.
From Coquelicot Require Import Coquelicot.
From Verif Require Import Base RT_Model Sca_Model Sca_Spec Int_Model Int_Spec Int2_Proofs Shp_Model Shp_Spec Shp_Proofs
  Cvg_Spec Cvg_Model Cvg4_Proofs Hem_Model Pol_Model Pol_Spec.
Import ListNotations.
Local Open Scope R_scope.

Lemma mapM_inv {A B} (f : A -> res B) l m : mapM f l = Ok m -> Forall2 (fun a b => f a = Ok b) l m.
Proof.
  revert m; induction l as [|a l IH]; intros m H; cbn [mapM] in H; [injection H as <-; constructor|].
  destruct (f a) as [b|] eqn:E; cbn [bind] in H; [|discriminate]. destruct (mapM f l) as [m'|] eqn:E'; cbn [bind] in H; [|discriminate].
  injection H as <-. constructor; auto.
Qed.
Lemma mapM_total {A B} (f : A -> res B) l : (forall a, In a l -> exists b, f a = Ok b) -> exists m, mapM f l = Ok m.
Proof.
  induction l as [|a l IH]; intros H; [eexists; reflexivity|]. destruct (H a (or_introl eq_refl)) as [b E].
  destruct IH as [m E']; [intros; apply H; right; assumption|]. cbn [mapM]. rewrite E; cbn [bind]. rewrite E'. eexists. reflexivity.
Qed.
Lemma Forall2_app' {A B} (R : A -> B -> Prop) l1 m1 l2 m2 : Forall2 R l1 m1 -> Forall2 R l2 m2 -> Forall2 R (l1 ++ l2) (m1 ++ m2).
Proof. intros H; induction H; intros; simpl; [assumption|constructor; auto]. Qed.

(** ** values *)
Lemma value_textbook X pd t ts : fine X pd -> value_at X pd t ts = textbook X pd t ts.
Proof.
  destruct X as [|N v|N s|]; simpl; try contradiction; [intros H; apply vfun_value, H|intros [H _]; apply sfun_value, H].
Qed.

Lemma scat_flip2 a t ts p q : scat_angle (PI - t) (PI - ts) p q a = scat_angle t ts p q a.
Proof.
  unfold scat_angle. replace (cos (PI - t)) with (- cos t) by (rewrite cos_minus, cos_PI, sin_PI; ring).
  replace (cos (PI - ts)) with (- cos ts) by (rewrite cos_minus, cos_PI, sin_PI; ring).
  replace (sin (PI - t)) with (sin t) by (rewrite sin_minus, cos_PI, sin_PI; ring).
  replace (sin (PI - ts)) with (sin ts) by (rewrite sin_minus, cos_PI, sin_PI; ring). ring.
Qed.
Lemma vfun_flip v pd t ts p q : vfun_func v pd (PI - t) (PI - ts) p q = vfun_func v pd t ts p q.
Proof.
  assert (E : forall e, velem_func pd e (PI - t) (PI - ts) p q = velem_func pd e t ts p q) by (intros e; unfold velem_func; rewrite scat_flip2; reflexivity).
  destruct v as [e|cs]; simpl; [apply E|]. generalize 0. induction cs as [|c cs IH]; intros acc; simpl; [reflexivity|]. rewrite E. apply IH.
Qed.

(** the approximation converges, uniformly in the angles *)
Lemma approx_close X pd : fine X pd -> exists e : nat -> R, is_lim_seq e 0 /\ forall N t ts y,
  approx_at (with_ncoefs N X) pd t ts = Ok y -> Rabs (y - textbook X pd t ts) <= e N.
Proof.
  destruct X as [|N0 v|N0 s|]; simpl; try contradiction.
  - intros H. destruct (v_close pd v H) as (e & B & L & W & _ & _). exists e. split; [exact L|]. intros N t ts y E.
    destruct v as [el|cs]; [|discriminate]. injection E as <-.
    specialize (W N (PI - t) 0 ts 0). unfold exact_phase in W. rewrite <- vfun_value in W by exact H. rewrite vfun_flip in W.
    rewrite vfun_value in W by exact H. unfold V_value in W. cbn [v_obj plain_obj expansions map fold_right e_coefs e_np e_a] in W.
    rewrite Rplus_0_r in W. exact W.
  - intros [H HL]. destruct (s_close pd s H HL) as (e & B & L & W & _ & _). exists e. split; [exact L|]. intros N t ts y E.
    specialize (W N ts 0 t 0). unfold exact_brdf in W.
    assert (Y : S_value (s_obj pd N s) ts 0 t 0 = y).
    { destruct s as [el|cs]; injection E as <-.
      - unfold S_value. cbn [s_obj plain_obj expansions map fold_right e_coefs e_np e_a]. apply Rplus_0_r.
      - apply comb_S_value. }
    rewrite Y in W. replace (s_sum pd (s_elems s) t ts 0 0) with (s_sum pd (s_elems s) ts t 0 0); [exact W|].
    rewrite <- !sfun_value by exact H.
    assert (E' : forall e, selem_func pd e ts t 0 0 = selem_func pd e t ts 0 0).
    { intros el. unfold selem_func. f_equal. unfold scat_angle. ring. }
    clear - E'. destruct s as [el|cs]; simpl; [apply E'|]. generalize 0 at 3 6. induction cs as [|c cs IH]; intros acc; simpl; [reflexivity|]. rewrite E'. apply IH.
Qed.

(** ** the drawing loop *)
Lemma pmax_fold X pd mu l : forall p, let q := fold_left (fun p i => let p_i := mu * maxval (value_at X pd i) in if Rlt_dec p p_i then p_i else p) l p in
  p <= q /\ forall i, In i l -> mu * maxval (value_at X pd i) <= q.
Proof.
  induction l as [|i l IH]; intros p; simpl; [split; [lra|tauto]|].
  destruct (IH (if Rlt_dec p (mu * maxval (value_at X pd i)) then mu * maxval (value_at X pd i) else p)) as [A B]. simpl in A, B.
  set (q := fold_left _ l _) in *. clearbody q.
  destruct (Rlt_dec p (mu * maxval (value_at X pd i))) as [L|L]; (split; [lra|]); intros j [<-|Hj]; auto; lra.
Qed.

Lemma draw_params_spec X ap mu inc st pd st' : draw_params X ap mu inc st pd = Ok st' ->
  exists ls, mapM (draw_line X ap pd) (map deg2rad inc) = Ok ls /\ d_lines (fst st') = d_lines (fst st) ++ ls /\
    snd st <= snd st' /\ (forall i, In i (map deg2rad inc) -> mu * maxval (value_at X pd i) <= snd st') /\
    (inc <> [] -> d_rmax (fst st') = snd st' * (12 / 10)).
Proof.
  intros H. unfold draw_params in H.
  destruct (if ap then match approx_at X pd 0 0 with Ok _ => Ok tt | Err e => Err e end else Ok tt) as [u|]; cbn [bind] in H; [|discriminate].
  destruct (pmax_fold X pd mu (map deg2rad inc) (snd st)) as [A B]. cbv zeta in A, B. cbv zeta in H.
  set (q := fold_left _ (map deg2rad inc) (snd st)) in *. clearbody q.
  destruct (mapM (draw_line X ap pd) (map deg2rad inc)) as [ls|] eqn:E; cbn [bind] in H; [|discriminate]. injection H as <-.
  exists ls. cbn [fst snd d_lines d_rmax]. split; [reflexivity|]. split; [reflexivity|]. split; [exact A|]. split; [exact B|].
  intros N. destruct inc; [congruence|reflexivity].
Qed.

Lemma draw_all_spec X ap mu inc : forall pds st d, draw_all X ap mu inc st pds = Ok d ->
  exists ls p, d_lines d = d_lines (fst st) ++ ls /\ snd st <= p /\
    Forall2 (fun x l => draw_line X ap (fst x) (deg2rad (snd x)) = Ok l) (list_prod pds inc) ls /\
    (forall pd i, In pd pds -> In i inc -> mu * maxval (value_at X pd (deg2rad i)) <= p) /\
    (inc <> [] -> pds <> [] -> d_rmax d = p * (12 / 10)) /\ (pds = [] -> p = snd st).
Proof.
  induction pds as [|pd pds IH]; intros st d H; cbn [draw_all] in H.
  - injection H as <-. exists [], (snd st). rewrite app_nil_r. split; [reflexivity|]. split; [lra|]. split; [constructor|]. split; [intros ? ? []|split; [congruence|reflexivity]].
  - destruct (draw_params X ap mu inc st pd) as [st'|] eqn:E; cbn [bind] in H; [|discriminate].
    destruct (draw_params_spec _ _ _ _ _ _ _ E) as (l1 & M & L1 & P1 & Q1 & R1).
    destruct (IH st' d H) as (l2 & p & L2 & P2 & F2 & Q2 & R2 & S2).
    exists (l1 ++ l2), p. split; [rewrite L2, L1, app_assoc; reflexivity|]. split; [lra|]. split; [|split; [|split; [|discriminate]]].
    + cbn [list_prod]. apply Forall2_app'; [|exact F2]. apply mapM_inv in M. clear - M.
      revert l1 M. induction inc as [|i inc IH]; intros l1 M; inversion M; subst; constructor; auto.
    + intros pd' i [<-|Hp] Hi; [|apply Q2; assumption]. pose proof (Q1 (deg2rad i) (in_map _ _ _ Hi)). lra.
    + intros N _. destruct pds as [|pd2 pds]; [|apply R2; [exact N|discriminate]].
      cbn [draw_all] in H. injection H as <-. rewrite (R1 N), S2; reflexivity.
Qed.

Lemma draw_all_total X ap mu inc : (ap = true -> expandable_X X) -> forall pds st, exists d, draw_all X ap mu inc st pds = Ok d.
Proof.
  intros HX. assert (A : forall pd t ts, ap = true -> exists y, approx_at X pd t ts = Ok y).
  { intros pd t ts E. specialize (HX E). destruct X as [|N [e|cs]|N [e|cs]|]; simpl in HX; try contradiction; eexists; reflexivity. }
  assert (L : forall pd t, exists l, draw_line X ap pd t = Ok l).
  { intros pd t. unfold draw_line. destruct ap; [|eexists; reflexivity].
    destruct (mapM_total (approx_at X pd t) (thetass X)) as [m E]; [intros a _; apply A; reflexivity|]. rewrite E. eexists. reflexivity. }
  induction pds as [|pd pds IH]; intros st; cbn [draw_all]; [eexists; reflexivity|].
  assert (exists st', draw_params X ap mu inc st pd = Ok st') as [st' E].
  { unfold draw_params. destruct (mapM_total (draw_line X ap pd) (map deg2rad inc)) as [m E]; [intros; apply L|]. rewrite E.
    destruct ap; [destruct (A pd 0 0 eq_refl) as [y Ey]; rewrite Ey|]; cbn [bind]; eexists; reflexivity. }
  rewrite E. cbn [bind]. apply IH.
Qed.

Lemma polarplot_inv X o d r : polarplot X o = (Some d, r) ->
  draw_all X (o_aprox o) (o_multip o) (o_inc o) (mkdrawn [] 0, 0) (o_params o) = Ok d /\ o_params o <> [] /\
  r = match o_axes o with None => Ok tt | Some _ => Err UnboundLocalError end /\ (o_axes o = None \/ o_axes o = Some true).
Proof.
  unfold polarplot. destruct (o_inc_list o), (o_multip_float o); cbn [negb]; try discriminate.
  destruct X; try discriminate; destruct (o_axes o) as [[|]|]; try discriminate; destruct (o_params o) as [|pd pds]; try discriminate;
    try (destruct (draw_all _ _ _ _ _ _) as [d'|]; [|discriminate]; intros H; injection H as <- <-; repeat split; auto; discriminate).
Qed.
Lemma polarplot_draws X o : good_opts o -> (o_aprox o = true -> expandable_X X) -> X <> XNone -> X <> XOther ->
  exists d, polarplot X o = (Some d, match o_axes o with None => Ok tt | Some _ => Err UnboundLocalError end).
Proof.
  intros (A & B & C & D) H N1 N2. unfold polarplot. rewrite A, B. cbn [negb].
  destruct (draw_all_total X (o_aprox o) (o_multip o) (o_inc o) H (o_params o) (mkdrawn [] 0, 0)) as [d E].
  exists d. destruct X; try congruence; destruct (o_axes o) as [[|]|]; try congruence; destruct (o_params o); try congruence; rewrite E; reflexivity.
Qed.

Lemma draw_line_inv X ap pd t l : draw_line X ap pd t = Ok l ->
  l_inc l = t /\ l_angles l = thetass X /\ l_solid l = map (value_at X pd t) (thetass X) /\
  match l_dashed l with
  | None => ap = false
  | Some ds => ap = true /\ Forall2 (fun ts y => approx_at X pd t ts = Ok y) (thetass X) ds
  end.
Proof.
  unfold draw_line. destruct ap; cbn [bind].
  - destruct (mapM (approx_at X pd t) (thetass X)) as [ds|] eqn:E; cbn [bind]; [|discriminate]. intros H; injection H as <-. cbn.
    repeat split. apply mapM_inv, E.
  - intros H; injection H as <-. cbn. auto.
Qed.

Lemma fold_max (f : R -> R) l : forall m, m <= fold_left (fun m t => Rmax m (f t)) l m /\ forall t, In t l -> f t <= fold_left (fun m t => Rmax m (f t)) l m.
Proof.
  induction l as [|a l IH]; intros m; simpl; [split; [lra|tauto]|]. destruct (IH (Rmax m (f a))) as [A B].
  pose proof (Rmax_l m (f a)). pose proof (Rmax_r m (f a)). split; [lra|]. intros t [<-|H1]; [lra|auto].
Qed.
Lemma maxval_ge (f : R -> R) t : In t (arange 0 (2 * PI) (1 / 100)) -> f t <= maxval f.
Proof.
  unfold maxval. destruct (arange 0 (2 * PI) (1 / 100)) as [|a l]; [intros []|]. destruct (fold_max f l (f a)) as [A B].
  intros [<-|H]; auto.
Qed.
