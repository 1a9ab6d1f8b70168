(** Symmetries of the azimuth integral; geometry shortcuts; degenerate inputs. *)
From Coq Require Import Reals List Lra Lia Arith Bool Psatz.
From Coquelicot Require Import Coquelicot.
From Verif Require Import Base Base_Proofs Sca_Model Sca_Spec Sca_Proofs Sca2_Proofs Int_Model Int_Spec Int_Proofs Ei_Proofs Ei2_Proofs Int2_Proofs.
Import ListNotations.
Local Open Scope R_scope.

Lemma ev_cont p th x : continuous (fun ph => ev p th ph) x.
Proof.
  induction p as [|m p IH].
  - apply (continuous_ext (fun _ => 0)); [intros; rewrite ev_nil; reflexivity|apply contC].
  - apply (continuous_ext (fun ph => mev m th ph + ev p th ph)); [intros; rewrite ev_cons; reflexivity|].
    apply contP; [|exact IH]. apply ex_derive_cont. unfold mev. auto_derive. auto.
Qed.
Lemma sin_per x : sin (x + 2 * PI) = sin x.
Proof. rewrite sin_plus, cos_2PI, sin_2PI. ring. Qed.
Lemma cos_per x : cos (x + 2 * PI) = cos x.
Proof. rewrite cos_plus, cos_2PI, sin_2PI. ring. Qed.
Lemma ev_per p th x : ev p th (x + 2 * PI) = ev p th x.
Proof. unfold ev. f_equal. apply map_ext. intros m. unfold mev. rewrite sin_per, cos_per. reflexivity. Qed.

Lemma product_ev V S a b c d ths phs :
  V_value V a b ths phs * S_value S ths phs c d = ev (pmul (volexp V a b) (brdfexp S c d)) ths phs.
Proof. rewrite ev_mul, ev_volexp, ev_brdfexp. reflexivity. Qed.

Lemma azimuth_shift V S a b c d ths s :
  azimuth_product (V_value V a b) (fun ts ps => S_value S ts ps c d) ths =
  RInt (fun phs => V_value V a b ths (phs + s) * S_value S ths (phs + s) c d) 0 (2 * PI).
Proof.
  unfold azimuth_product. rewrite <- (per_shift (fun phs => V_value V a b ths phs * S_value S ths phs c d)) with (c := s); [reflexivity| |].
  - intros x. apply (continuous_ext (fun phs => ev (pmul (volexp V a b) (brdfexp S c d)) ths phs)); [intros; rewrite product_ev; reflexivity|apply ev_cont].
  - intros x. rewrite !product_ev. apply ev_per.
Qed.
Lemma azimuth_reflect V S a b c d ths s :
  azimuth_product (V_value V a b) (fun ts ps => S_value S ts ps c d) ths =
  RInt (fun phs => V_value V a b ths (s - phs) * S_value S ths (s - phs) c d) 0 (2 * PI).
Proof.
  unfold azimuth_product. rewrite <- (per_reflect (fun phs => V_value V a b ths phs * S_value S ths phs c d)) with (c := s); [reflexivity| |].
  - intros x. apply (continuous_ext (fun phs => ev (pmul (volexp V a b) (brdfexp S c d)) ths phs)); [intros; rewrite product_ev; reflexivity|apply ev_cont].
  - intros x. rewrite !product_ev. apply ev_per.
Qed.

(** rotating both directions by pi *)
Lemma V_value_pi V t p ts ps : V_value V t (p + PI) ts (ps + PI) = V_value V t p ts ps.
Proof.
  unfold V_value. f_equal. apply map_ext. intros e. unfold legexpansion_V. f_equal. unfold scat_angle.
  rewrite !neg_cos, !neg_sin. ring.
Qed.
Lemma S_value_pi S ts ps t p : S_value S ts (ps + PI) t (p + PI) = S_value S ts ps t p.
Proof.
  unfold S_value. f_equal. apply map_ext. intros e. unfold legexpansion_S. f_equal. unfold scat_angle.
  rewrite !neg_cos, !neg_sin. ring.
Qed.
Lemma V_value_2pi V t p ts ps : V_value V t (p + 2 * PI) ts ps = V_value V t p ts ps.
Proof.
  unfold V_value. f_equal. apply map_ext. intros e. unfold legexpansion_V. f_equal. unfold scat_angle.
  rewrite !sin_per, !cos_per. ring.
Qed.

(** weights with a_1 = a_2: only azimuth differences matter *)
Definition equal_weights (o : sobj) : Prop := Forall (fun e => a1 (e_a e) = a2 (e_a e)) (expansions o).
Lemma scat_diff a t0 tex p0 pex : a1 a = a2 a -> scat_angle t0 tex p0 pex a = a0 a * cos t0 * cos tex + a1 a * sin t0 * sin tex * cos (p0 - pex).
Proof. intros E. unfold scat_angle. rewrite <- E, cos_minus. ring. Qed.
Lemma V_value_diff V t p ts ps p' ps' : equal_weights V -> cos (p - ps) = cos (p' - ps') -> V_value V t p ts ps = V_value V t p' ts ps'.
Proof.
  intros H E. unfold V_value. f_equal. apply map_ext_in. intros e He. unfold equal_weights in H. rewrite Forall_forall in H.
  unfold legexpansion_V. rewrite !scat_diff by (apply H, He). rewrite E. reflexivity.
Qed.
Lemma S_value_diff S ts ps t p ps' p' : equal_weights S -> cos (ps - p) = cos (ps' - p') -> S_value S ts ps t p = S_value S ts ps' t p'.
Proof.
  intros H E. unfold S_value. f_equal. apply map_ext_in. intros e He. unfold equal_weights in H. rewrite Forall_forall in H.
  unfold legexpansion_S. rewrite !scat_diff by (apply H, He). rewrite E. reflexivity.
Qed.

(** exchanging the azimuths *)
Lemma azimuth_swap V S t p t' p' ths : equal_weights V -> equal_weights S ->
  azimuth_product (V_value V t p) (fun ts ps => S_value S ts ps t' p') ths =
  azimuth_product (V_value V t p') (fun ts ps => S_value S ts ps t' p) ths.
Proof.
  intros HV HS. rewrite (azimuth_reflect V S t p t' p' ths (p + p')). unfold azimuth_product. apply RInt_ext. intros x _.
  rewrite (V_value_diff V t p ths (p + p' - x) p' x HV). 2:{ rewrite <- cos_neg. f_equal. ring. }
  rewrite (S_value_diff S ths (p + p' - x) t' p' x p HS). 2:{ rewrite <- cos_neg. f_equal. ring. }
  reflexivity.
Qed.
(** rotating both azimuths *)
Lemma azimuth_rotate V S t p t' p' ths s : equal_weights V -> equal_weights S ->
  azimuth_product (V_value V t (p + s)) (fun ts ps => S_value S ts ps t' (p' + s)) ths =
  azimuth_product (V_value V t p) (fun ts ps => S_value S ts ps t' p') ths.
Proof.
  intros HV HS. rewrite (azimuth_shift V S t (p + s) t' (p' + s) ths s). unfold azimuth_product. apply RInt_ext. intros x _.
  rewrite (V_value_diff V t (p + s) ths (x + s) p x HV) by (f_equal; ring).
  rewrite (S_value_diff S ths (x + s) t' (p' + s) x p' HS) by (f_equal; ring).
  reflexivity.
Qed.
(** exchanging azimuths that differ by pi, for arbitrary weights *)
Lemma azimuth_swap_pi V S t t' p ths :
  azimuth_product (V_value V t (p + PI)) (fun ts ps => S_value S ts ps t' p) ths =
  azimuth_product (V_value V t p) (fun ts ps => S_value S ts ps t' (p + PI)) ths.
Proof.
  rewrite (azimuth_shift V S t p t' (p + PI) ths PI). unfold azimuth_product. apply RInt_ext. intros x _.
  rewrite S_value_pi. f_equal. rewrite <- (V_value_2pi V t p). replace (p + 2 * PI) with (p + PI + PI) by ring. rewrite V_value_pi. reflexivity.
Qed.

(** two geometries that see the same azimuth integrals give the same interaction term *)
Lemma interaction_same expi expn V S g g' I0 omega tau NormBRDF bsf t_0 p_0 t_ex p_ex :
  is_expi expi -> is_expn expn -> bounded_obj V -> bounded_obj S -> 0 < tau -> 0 < cos t_0 < 1 -> 0 < cos t_ex < 1 ->
  (forall ths, let '(a, b, c, d) := seen g t_0 p_0 t_ex p_ex in let '(a', b', c', d') := seen g' t_0 p_0 t_ex p_ex in
     azimuth_product (V_value V a b) (fun ts ps => S_value S ts ps c d) ths =
     azimuth_product (V_value V a' b') (fun ts ps => S_value S ts ps c' d') ths) ->
  (forall ths, let '(a, b, c, d) := seen g t_ex p_ex t_0 p_0 in let '(a', b', c', d') := seen g' t_ex p_ex t_0 p_0 in
     azimuth_product (V_value V a b) (fun ts ps => S_value S ts ps c d) ths =
     azimuth_product (V_value V a' b') (fun ts ps => S_value S ts ps c' d') ths) ->
  interaction expi expn V S g I0 omega tau NormBRDF bsf t_0 p_0 t_ex p_ex =
  interaction expi expn V S g' I0 omega tau NormBRDF bsf t_0 p_0 t_ex p_ex.
Proof.
  intros He Hn HV HS Ht H0 H1 E1 E2.
  pose proof (interaction_value expi expn V S g I0 omega tau NormBRDF bsf t_0 p_0 t_ex p_ex He Hn HV HS Ht H0 H1) as A.
  pose proof (interaction_value expi expn V S g' I0 omega tau NormBRDF bsf t_0 p_0 t_ex p_ex He Hn HV HS Ht H0 H1) as B.
  destruct (seen g t_0 p_0 t_ex p_ex) as [[[a b] c] d]. destruct (seen g t_ex p_ex t_0 p_0) as [[[a' b'] c'] d'].
  destruct (seen g' t_0 p_0 t_ex p_ex) as [[[e f] h] i]. destruct (seen g' t_ex p_ex t_0 p_0) as [[[e' f'] h'] i'].
  destruct A as [F1 [F2 [A1 [A2 A3]]]], B as [G1 [G2 [B1 [B2 B3]]]]. rewrite A3, B3.
  assert (F1 = G1). { eapply F_int_unique; [exact A1|]. eapply F_int_ext; [|exact B1]. intros m _. cbv beta. symmetry. apply E1. }
  assert (F2 = G2). { eapply F_int_unique; [exact A2|]. eapply F_int_ext; [|exact B2]. intros m _. cbv beta. symmetry. apply E2. }
  subst. reflexivity.
Qed.

(** ** positivity of the kernel integral *)
Lemma phi_pos y : 0 < phi y.
Proof.
  unfold phi. destruct (Req_EM_T y 0) as [|N]; [lra|]. destruct (Rtotal_order y 0) as [H|[H|H]]; [|lra|].
  - replace ((exp y - 1) / y) with ((1 - exp y) / - y) by (field; lra). apply Rdiv_lt_0_compat; [|lra].
    pose proof (exp_increasing y 0 H). rewrite exp_0 in *. lra.
  - apply Rdiv_lt_0_compat; [|lra]. pose proof (exp_increasing 0 y H). rewrite exp_0 in *. lra.
Qed.
Lemma unit_sum (h : nat -> R) n : forall s,
  fold_right Rplus 0 (map (fun q => snd q * h (fst q)) (combine (seq s (length (repeat 0 n ++ [1]))) (repeat 0 n ++ [1]))) = h (n + s)%nat.
Proof.
  induction n as [|n IH]; intros s; [simpl; ring|].
  cbn [repeat app length seq combine map fold_right fst snd]. rewrite IH. replace (n + S s)%nat with (S n + s)%nat by lia. ring.
Qed.
Lemma kernel_pos expi expn tau mu n l : is_expi expi -> is_expn expn -> 0 < tau -> 0 < mu < 1 ->
  is_F_int tau mu (fun m => m ^ n) l -> 0 < l.
Proof.
  intros He Hn Ht Hmu I.
  pose proof (J expi expn He Hn mu tau Hmu Ht (S n)) as JJ.
  assert (X : is_F_int tau mu (fun m => m ^ n) (mu ^ S n * (hlp1R expi mu tau + inner_sum expn mu tau (S n)))).
  { pose proof (F_int_sum expi expn He Hn mu tau Hmu Ht (repeat 0 n ++ [1]) (fun m => m ^ n)) as K.
    rewrite (unit_sum (fun j => mu ^ S j * (hlp1R expi mu tau + inner_sum expn mu tau (S j)))), Nat.add_0_r in K. apply K. intros m _. clear. induction n; simpl; [ring|]. rewrite <- IHn. ring. }
  rewrite (F_int_unique _ _ _ _ _ I X). clear I X l.
  pose proof (is_RInt_unique _ _ _ _ JJ) as U. set (f := fun m : R => m ^ S n * K0 mu tau m) in *.
  assert (E0 : ex_RInt f 0 (1/2)). { apply (ex_RInt_Chasles_1 f 0 (1/2) 1); [lra|]. eexists; exact JJ. }
  assert (E1 : ex_RInt f (1/2) 1). { apply (ex_RInt_Chasles_2 f 0 (1/2) 1); [lra|]. eexists; exact JJ. }
  assert (Pos : forall m, 0 < m -> 0 < f m).
  { intros m Hm. unfold f, K0. apply Rmult_lt_0_compat; [apply pow_lt, Hm|]. apply Rmult_lt_0_compat; [|apply phi_pos].
    apply Rmult_lt_0_compat; [apply exp_pos|]. apply Rdiv_lt_0_compat; nra. }
  rewrite <- U. rewrite <- (RInt_Chasles f 0 (1/2) 1 E0 E1). unfold plus; simpl.
  assert (0 <= RInt f 0 (1/2)) by (apply RInt_ge_0; [lra|exact E0|intros; left; apply Pos; lra]).
  assert (0 < RInt f (1/2) 1); [|lra].
  apply RInt_gt_0; [lra|intros; apply Pos; lra|]. intros x Hx. unfold f.
  apply contM; [apply ex_derive_cont; auto_derive; auto|apply K0_cont; lra].
Qed.

(** ** linear combinations of surfaces *)
Definition one_obj (c : choice) : sobj := plain_obj (ch_ncoefs c) (ch_coefs c) (ch_a c).
Lemma one_value c ts ps tx px : S_value (one_obj c) ts ps tx px = legexpansion_S (ch_coefs c) (ch_ncoefs c) (ch_a c) ts ps tx px.
Proof. unfold S_value; simpl. ring. Qed.
Lemma wsum_product V cs a b c d ths : bounded_obj V -> (forall ch, In ch cs -> (1 <= ch_ncoefs ch)%nat) ->
  is_RInt (fun phs => V_value V a b ths phs * wsum (fun ch => S_value (one_obj ch) ths phs c d) cs) 0 (2 * PI)
    (wsum (fun ch => azimuth_product (V_value V a b) (fun ts ps => S_value (one_obj ch) ts ps c d) ths) cs).
Proof.
  intros HV. induction cs as [|ch cs IH]; intros H.
  - eapply is_RInt_extR; [pose proof PI_pos; lra| |eapply is_RInt_replace; [|apply (is_RInt_constR 0 (2 * PI) 0)]]; [intros; simpl; ring|simpl; ring].
  - assert (HS : bounded_obj (one_obj ch)) by (apply plain_bounded, H; left; reflexivity).
    pose proof (product_int V (one_obj ch) a b c d ths HV HS) as A.
    eapply is_RInt_extR; [pose proof PI_pos; lra| |apply is_RInt_plusR; [apply is_RInt_scalR with (c := ch_frac ch); exact A|
      apply IH; intros; apply H; right; assumption]].
    intros x _. cbn [wsum]. ring.
Qed.
Lemma wsum_F_int tau mu (g : choice -> R -> R) (F : choice -> R) cs :
  (forall c, In c cs -> is_F_int tau mu (g c) (F c)) -> is_F_int tau mu (fun m => wsum (fun c => g c m) cs) (wsum F cs).
Proof.
  induction cs as [|c cs IH]; intros H; [apply F_int_zero|]. cbn [wsum]. apply F_int_plus; [apply F_int_scal, H; left; reflexivity|].
  apply IH. intros; apply H; right; assumption.
Qed.
Definition fin_of (r : res num) : R := match r with Ok (Fin x) => x | _ => 0 end.
Lemma wsum_lin c0 c1 c2 (F G : choice -> R) cs : wsum (fun c => c0 * (c1 * F c + c2 * G c)) cs = c0 * (c1 * wsum F cs + c2 * wsum G cs).
Proof. induction cs; simpl; [ring|]. rewrite IHcs. ring. Qed.

(** ** degenerate inputs *)
Lemma nscale_nan a : nscale a NaN = NaN.
Proof. reflexivity. Qed.
Lemma fold_nan l : fold_left nadd l NaN = NaN.
Proof. induction l; simpl; [reflexivity|exact IHl]. Qed.
Lemma fold_nan' l : l <> [] -> (forall x, In x l -> x = NaN) -> fold_left nadd l (Fin 0) = NaN.
Proof. destruct l as [|x l]; [congruence|]. intros _ H. simpl. rewrite (H x (or_introl eq_refl)). simpl. apply fold_nan. Qed.
Lemma bcast_ok V S g t1 p1 t2 p2 fn (mp : list num) : bounded_obj V -> bounded_obj S ->
  fnevals V S g t1 p1 t2 p2 = Ok fn -> length mp = N_fn V S ->
  exists terms, bcast fn mp = Ok terms /\ terms <> [] /\ (forall x, In x terms -> exists f m, In m mp /\ x = nscale f m).
Proof.
  intros HV HS E L. pose proof (fn_sum V S g t1 p1 t2 p2 0 HV HS) as F. destruct (seen g t1 p1 t2 p2) as [[[? ?] ?] ?].
  destruct F as [fn' [E' [Lf _]]]. assert (fn' = fn) by congruence. subst fn'.
  assert (HN : (1 <= N_fn V S)%nat) by (destruct HV, HS; unfold N_fn; lia).
  unfold bcast. rewrite Lf, L. destruct (Nat.eqb_spec (Nat.max 2 (N_fn V S)) (N_fn V S)) as [Q|Q].
  - eexists. split; [reflexivity|]. split.
    + destruct fn, mp; cbn [length] in Lf, L; try lia. simpl. discriminate.
    + intros x Hx. apply in_map_iff in Hx. destruct Hx as [[f m] [<- Hx]]. exists f, m. split; [eapply in_combine_r, Hx|reflexivity].
  - destruct mp as [|m [|? ?]]; simpl in L; try lia. eexists. split; [reflexivity|]. split.
    + destruct fn; cbn [length] in Lf; try lia. simpl. discriminate.
    + intros x Hx. apply in_map_iff in Hx. destruct Hx as [f [<- Hx]]. exists f, m. split; [left; reflexivity|reflexivity].
Qed.
Lemma fnevals_ok V S g t1 p1 t2 p2 : bounded_obj V -> bounded_obj S -> exists fn, fnevals V S g t1 p1 t2 p2 = Ok fn.
Proof.
  intros HV HS. pose proof (fn_sum V S g t1 p1 t2 p2 0 HV HS) as F. destruct (seen g t1 p1 t2 p2) as [[[? ?] ?] ?].
  destruct F as [fn [E _]]. exists fn. exact E.
Qed.
Lemma multip_length expi expn nmax mu tau :
  length (map (fun q => nscale (fst q) (snd q)) (combine (mu_x nmax mu) (S2_mu expi expn nmax mu tau))) = nmax.
Proof. unfold mu_x, S2_mu. rewrite map_length, combine_length, !map_length, !seq_length. lia. Qed.
Lemma calc_Fint_ok expi expn V S g tau t1 p1 t2 p2 : bounded_obj V -> bounded_obj S ->
  exists x, calc_Fint expi expn V S g tau t1 p1 t2 p2 = Ok x /\ (hlp1 expi (cos t1) tau = NaN -> x = NaN).
Proof.
  intros HV HS. destruct (fnevals_ok V S g t1 p1 t2 p2 HV HS) as [fn E].
  unfold calc_Fint. rewrite E. cbn [bind].
  destruct (bcast_ok V S g t1 p1 t2 p2 fn (map (fun q => nscale (fst q) (snd q))
     (combine (mu_x (ncoefs V + ncoefs S - 1) (cos t1)) (S2_mu expi expn (ncoefs V + ncoefs S - 1) (cos t1) tau))) HV HS E) as [terms [T1 [T2 T3]]].
  { rewrite multip_length. unfold N_fn. lia. }
  rewrite T1. cbn [bind]. eexists. split; [reflexivity|]. intros Hh. apply fold_nan'; [exact T2|].
  intros x Hx. destruct (T3 x Hx) as [f [m [Hm ->]]]. apply in_map_iff in Hm. destruct Hm as [[a y] [<- Hm]]. apply in_combine_r in Hm.
  unfold S2_mu in Hm. apply in_map_iff in Hm. destruct Hm as [n [<- _]]. rewrite Hh. reflexivity.
Qed.
Lemma nadd_nan_r x : nadd x NaN = NaN.
Proof. destruct x; reflexivity. Qed.

Lemma interaction_nadir : forall expi expn V S g I0 omega tau NormBRDF bsf p_0 t_ex p_ex,
  bounded_obj V -> bounded_obj S -> 0 < tau -> 0 < cos t_ex < 1 ->
  interaction expi expn V S g I0 omega tau NormBRDF bsf 0 p_0 t_ex p_ex = Ok NaN.
Proof.
  intros expi expn V S g I0 omega tau NormBRDF bsf p_0 t_ex p_ex HV HS Ht H1. unfold interaction.
  destruct (calc_Fint_ok expi expn V S g tau 0 p_0 t_ex p_ex HV HS) as [x [-> Hx]].
  destruct (calc_Fint_ok expi expn V S g tau t_ex p_ex 0 p_0 HV HS) as [y [-> _]]. cbn [bind]. rewrite Hx; [reflexivity|].
  rewrite cos_0. unfold hlp1, ndiv, nexpi. destruct (Req_EM_T (1 - 1) 0); [|lra]. destruct (Rlt_dec 0 1); [|lra].
  destruct (Req_EM_T (- tau) 0); [lra|]. destruct (Req_EM_T (tau / 1 - tau) 0) as [|N]; [|exfalso; apply N; field].
  simpl. pose proof (exp_pos (- tau / 1)). destruct (Rlt_dec 0 (exp (- tau / 1))); [reflexivity|lra].
Qed.
Lemma interaction_tau0 : forall expi expn V S g I0 omega NormBRDF bsf t_0 p_0 t_ex p_ex,
  bounded_obj V -> bounded_obj S -> 0 < cos t_0 < 1 -> 0 < cos t_ex < 1 ->
  interaction expi expn V S g I0 omega 0 NormBRDF bsf t_0 p_0 t_ex p_ex = Ok NaN.
Proof.
  intros expi expn V S g I0 omega NormBRDF bsf t_0 p_0 t_ex p_ex HV HS H0 H1. unfold interaction.
  destruct (calc_Fint_ok expi expn V S g 0 t_0 p_0 t_ex p_ex HV HS) as [x [-> Hx]].
  destruct (calc_Fint_ok expi expn V S g 0 t_ex p_ex t_0 p_0 HV HS) as [y [-> _]]. cbn [bind]. rewrite Hx; [reflexivity|].
  set (mu := cos t_0) in *. unfold hlp1, ndiv, nexpi. destruct (Req_EM_T (1 - mu) 0); [lra|].
  destruct (Req_EM_T (- 0) 0) as [|N]; [|exfalso; apply N; ring]. destruct (Req_EM_T (0 / mu - 0) 0) as [|N]; [|exfalso; apply N; field; lra].
  simpl. assert (0 < mu / (1 - mu)) by (apply Rdiv_lt_0_compat; lra). destruct (Rlt_dec 0 (mu / (1 - mu))); [|lra]. simpl.
  pose proof (exp_pos (- 0 / mu)). destruct (Rlt_dec 0 (exp (- 0 / mu))); [reflexivity|lra].
Qed.

(** ** a fixed zenith angle *)
Lemma hg2_product t t0 p0 tx px ths :
  azimuth_product (V_value (plain_obj 2 (hgV_coefs t) default_a_V) t0 p0)
    (fun ts ps => S_value (plain_obj iso_ncoefs iso_coefs default_a_S) ts ps tx px) ths
  = (1 + 3 * t * cos t0 * cos ths) / (2 * PI).
Proof.
  pose proof PI_pos as HP. unfold azimuth_product. apply is_RInt_unique.
  set (k := 3 * t * (sin t0 * sin ths) / (4 * PI ^ 2)).
  eapply is_RInt_extR; [lra| |eapply is_RInt_replace; [|apply is_RInt_plusR;
    [apply (is_RInt_constR 0 (2 * PI) ((1 + 3 * t * cos t0 * cos ths) / (4 * PI ^ 2)))
    |apply is_RInt_scalR with (c := k); apply is_RInt_plusR;
      [apply is_RInt_scalR with (c := cos p0); exact (is_RInt_FTC cos sin 0 (2 * PI) ltac:(lra) (fun x _ => is_derive_sin x) (fun x _ => ex_derive_cont cos x (ex_intro _ _ (is_derive_cos x))))
      |apply is_RInt_scalR with (c := sin p0); exact (is_RInt_FTC sin (fun x => - cos x) 0 (2 * PI) ltac:(lra)
         (fun x _ => eq_ind _ (fun v => is_derive (fun x => - cos x) x v) (is_derive_opp cos x (- sin x) (is_derive_cos x)) _ (Ropp_involutive (sin x)))
         (fun x _ => ex_derive_cont sin x (ex_intro _ _ (is_derive_sin x))))]]]].
  - intros x _. unfold V_value, S_value, plain_obj, legexpansion_V, legexpansion_S, leg_sum, iso_ncoefs, hgV_coefs, iso_coefs, kron, leg; simpl.
    unfold scat_angle, default_a_V; simpl. replace (sin (PI - t0)) with (sin t0) by (rewrite sin_PI_x; reflexivity).
    rewrite Rtrigo_facts.cos_pi_minus. unfold k. field. lra.
  - rewrite sin_2PI, sin_0, cos_2PI, cos_0. unfold k. field. lra.
Qed.

Lemma fixed_zenith_differs : forall expi expn t I0 omega tau NormBRDF bsf t_0 p_0 t_ex p_ex,
  is_expi expi -> is_expn expn -> 0 < tau -> 0 < cos t_0 < 1 -> 0 < cos t_ex < 1 ->
  t <> 0 -> cos t_0 <> cos t_ex -> NormBRDF * (1 - bsf) * (I0 * cos t_0 * omega) <> 0 ->
  let V := plain_obj 2 (hgV_coefs t) default_a_V in
  let S := plain_obj iso_ncoefs iso_coefs default_a_S in
  interaction expi expn V S (GQuad (Some t_0) None None None) I0 omega tau NormBRDF bsf t_0 p_0 t_ex p_ex
  <> interaction expi expn V S all_variable I0 omega tau NormBRDF bsf t_0 p_0 t_ex p_ex.
Proof.
  intros expi expn t I0 omega tau NormBRDF bsf t_0 p_0 t_ex p_ex He Hn Ht H0 H1 Nt Nc Nk V S Eq.
  assert (HV : bounded_obj V) by (apply plain_bounded; lia).
  assert (HS : bounded_obj S) by (apply plain_bounded; unfold iso_ncoefs; lia).
  pose proof (interaction_value expi expn V S (GQuad (Some t_0) None None None) I0 omega tau NormBRDF bsf t_0 p_0 t_ex p_ex He Hn HV HS Ht H0 H1) as A.
  pose proof (interaction_value expi expn V S all_variable I0 omega tau NormBRDF bsf t_0 p_0 t_ex p_ex He Hn HV HS Ht H0 H1) as B.
  cbn [seen all_variable pick] in A, B. destruct A as [F1 [F2 [A1 [A2 A3]]]], B as [G1 [G2 [B1 [B2 B3]]]].
  rewrite Eq in A3. rewrite A3 in B3. clear Eq A3.
  assert (E : NormBRDF * (1 - bsf) * (I0 * cos t_0 * omega * (exp (- tau / cos t_ex) * F1 + exp (- tau / cos t_0) * F2)) =
              NormBRDF * (1 - bsf) * (I0 * cos t_0 * omega * (exp (- tau / cos t_ex) * G1 + exp (- tau / cos t_0) * G2))) by congruence.
  rewrite (F_int_unique _ _ _ _ _ A1 B1) in E. clear A1 B1 B3.
  assert (E2 : F2 = G2).
  { assert (X : NormBRDF * (1 - bsf) * (I0 * cos t_0 * omega) * (exp (- tau / cos t_0) * (F2 - G2)) = 0) by lra.
    apply Rmult_integral in X. destruct X as [X|X]; [contradiction|]. pose proof (exp_pos (- tau / cos t_0)).
    apply Rmult_integral in X. destruct X as [X|X]; lra. }
  subst G2.
  assert (P : forall c, exists l, is_F_int tau (cos t_ex) (fun m => (1 + c * m) / (2 * PI)) l /\ True).
  { intros c. eexists. split; [|exact I]. apply (F_int_sum expi expn He Hn (cos t_ex) tau H1 Ht [/ (2 * PI); c / (2 * PI)]).
    intros m _. simpl. pose proof PI_pos. field. lra. }
  pose proof (F_int_sum expi expn He Hn (cos t_ex) tau H1 Ht [0; 1] (fun m => m ^ 1) ltac:(intros; simpl; ring)) as M.
  match type of M with is_F_int _ _ _ ?w => set (w1 := w) in * end.
  pose proof (kernel_pos expi expn tau (cos t_ex) 1 w1 He Hn Ht H1 M) as Pos.
  assert (D : is_F_int tau (cos t_ex) (fun m => (1 + 3 * t * cos t_0 * m) / (2 * PI) + (-1) * ((1 + 3 * t * cos t_ex * m) / (2 * PI))) (F2 + (-1) * F2)).
  { apply F_int_plus; [|apply F_int_scal].
    - eapply F_int_ext; [|exact A2]. intros m Hm. cbv beta. unfold V, S. rewrite hg2_product, cos_acos by lra. reflexivity.
    - eapply F_int_ext; [|exact B2]. intros m Hm. cbv beta. unfold V, S. rewrite hg2_product, cos_acos by lra. reflexivity. }
  pose proof (F_int_scal tau (cos t_ex) (3 * t * (cos t_0 - cos t_ex) / (2 * PI)) _ _ M) as M'.
  assert (Z : 3 * t * (cos t_0 - cos t_ex) / (2 * PI) * w1 = F2 + (-1) * F2).
  { eapply F_int_unique; [exact M'|]. eapply F_int_ext; [|exact D]. intros m _. cbv beta. pose proof PI_pos. field. lra. }
  assert (Z' : 3 * t * (cos t_0 - cos t_ex) / (2 * PI) * w1 = 0) by lra.
  apply Rmult_integral in Z'. destruct Z' as [Z'|Z']; [|lra]. unfold Rdiv in Z'. apply Rmult_integral in Z'. destruct Z' as [Z'|Z'].
  - apply Rmult_integral in Z'. destruct Z' as [Z'|Z']; [|lra]. apply Rmult_integral in Z'. destruct Z'; lra.
  - pose proof PI_pos. assert (0 < / (2 * PI)) by (apply Rinv_0_lt_compat; lra). lra.
Qed.
