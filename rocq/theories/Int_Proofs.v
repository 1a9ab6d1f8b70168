(** Polynomial part of the interaction term. *)
From Coq Require Import Reals List Lra Lia Arith Bool Psatz.
From Coquelicot Require Import Coquelicot.
From Verif Require Import Base Sca_Model Sca_Spec Leg_Proofs Sca_Proofs Sca2_Proofs Sca3_Proofs Int_Model Int_Spec.
Import ListNotations.
Local Open Scope R_scope.
Notation Forall := List.Forall.

(** value of an expression for given integration angles *)
Definition mev (m : mono) (th ph : R) : R :=
  mc m * (sin ph ^ m_sp m * cos ph ^ m_cp m * (sin th ^ m_st m * cos th ^ m_ct m)).
Definition ev (p : poly) (th ph : R) : R := fold_right Rplus 0 (map (fun m => mev m th ph) p).

Arguments mev : simpl never.
Arguments ev : simpl never.

Lemma ev_nil th ph : ev [] th ph = 0. Proof. reflexivity. Qed.
Lemma ev_cons m p th ph : ev (m :: p) th ph = mev m th ph + ev p th ph. Proof. reflexivity. Qed.
Lemma ev_app p q th ph : ev (p ++ q) th ph = ev p th ph + ev q th ph.
Proof. induction p; simpl app; rewrite ?ev_cons, ?ev_nil, ?IHp; ring. Qed.
Lemma ev_scale c p th ph : ev (pscale c p) th ph = c * ev p th ph.
Proof.
  induction p as [|a p IHp]; [unfold pscale; simpl; rewrite ev_nil; ring|].
  change (pscale c (a :: p)) with (mscale c a :: pscale c p). rewrite !ev_cons, IHp.
  unfold mev, mscale; simpl. ring.
Qed.
Lemma mev_mul m n th ph : mev (mmul m n) th ph = mev m th ph * mev n th ph.
Proof. unfold mev, mmul; simpl. rewrite !pow_add. ring. Qed.
Lemma ev_map_mul m q th ph : ev (map (mmul m) q) th ph = mev m th ph * ev q th ph.
Proof. induction q; simpl map; rewrite ?ev_cons, ?ev_nil, ?IHq, ?mev_mul; ring. Qed.
Lemma ev_mul p q th ph : ev (pmul p q) th ph = ev p th ph * ev q th ph.
Proof.
  induction p as [|a p IHp]; [unfold pmul; simpl; rewrite ev_nil; ring|].
  change (pmul (a :: p) q) with (map (mmul a) q ++ pmul p q). rewrite ev_cons, ev_app, ev_map_mul, IHp. ring.
Qed.
Lemma ev_one th ph : ev pone th ph = 1.
Proof. unfold pone. rewrite ev_cons, ev_nil. unfold mev; simpl. ring. Qed.
Lemma ev_pow p k th ph : ev (ppow p k) th ph = ev p th ph ^ k.
Proof. induction k; simpl. apply ev_one. rewrite ev_mul, IHk. reflexivity. Qed.
Lemma ev_drop p th ph : ev (drop_zero p) th ph = ev p th ph.
Proof.
  induction p as [|m p IH]; [reflexivity|]. simpl. destruct (Req_EM_T (mc m) 0) as [E|E].
  - rewrite IH, ev_cons. unfold mev. rewrite E. ring.
  - rewrite !ev_cons, IH. reflexivity.
Qed.
Lemma ev_flat_map {A} (f : A -> poly) (l : list A) th ph :
  ev (flat_map f l) th ph = fold_right Rplus 0 (map (fun x => ev (f x) th ph) l).
Proof. induction l; simpl; [reflexivity|]. rewrite ev_app, IHl. reflexivity. Qed.

Lemma ev_pleg2 n x th ph :
  ev (fst (pleg2 n x)) th ph = leg n (ev x th ph) /\ ev (snd (pleg2 n x)) th ph = leg (S n) (ev x th ph).
Proof.
  induction n as [|n [A B]].
  - simpl fst; simpl snd. rewrite ev_one, leg_0, leg_1. auto.
  - cbn [pleg2]. destruct (pleg2 n x) as [p q]. cbn [fst snd] in A, B |- *. split; [exact B|].
    rewrite ev_app, !ev_scale, ev_mul, A, B.
    pose proof (leg_rec n (ev x th ph)) as L.
    assert (Hn : INR (S (S n)) <> 0) by (apply not_0_INR; lia).
    apply (Rmult_eq_reg_l (INR (S (S n)))); [|exact Hn].
    match goal with |- ?l = _ => replace l with ((2 * INR (S n) + 1) * ev x th ph * leg (S n) (ev x th ph) - INR (S n) * leg n (ev x th ph)) by (field; exact Hn) end.
    rewrite L. ring.
Qed.

Lemma ev_pleg_sum coefs NP x th ph : ev (pleg_sum coefs NP x) th ph = leg_sum coefs NP (ev x th ph).
Proof.
  unfold pleg_sum, leg_sum. rewrite ev_flat_map. f_equal. apply map_ext. intros n.
  rewrite ev_scale. f_equal. apply ev_pleg2.
Qed.
Lemma ev_x_V a th0 ph0 th ph : ev (x_V a th0 ph0) th ph = scat_angle (PI - th0) th ph0 ph a.
Proof. unfold x_V. rewrite !ev_cons, ev_nil. unfold mev, scat_angle; simpl. ring. Qed.
Lemma ev_x_S a thx phx th ph : ev (x_S a thx phx) th ph = scat_angle th thx ph phx a.
Proof. unfold x_S. rewrite !ev_cons, ev_nil. unfold mev, scat_angle; simpl. ring. Qed.

(** numerical values of the expansions *)
Lemma ev_volexp V th0 ph0 th ph : ev (volexp V th0 ph0) th ph = V_value V th0 ph0 th ph.
Proof.
  unfold volexp, V_value. rewrite ev_flat_map. f_equal. apply map_ext. intros e.
  rewrite ev_pleg_sum, ev_x_V. reflexivity.
Qed.
Lemma ev_brdfexp S thx phx th ph : ev (brdfexp S thx phx) th ph = S_value S th ph thx phx.
Proof.
  unfold brdfexp, S_value. rewrite ev_flat_map. f_equal. apply map_ext. intros e.
  rewrite ev_pleg_sum, ev_x_S. reflexivity.
Qed.

(** ** degrees *)
Definition deg_ok (D : nat) (m : mono) : Prop := (m_st m = m_sp m + m_cp m)%nat /\ (m_st m + m_ct m <= D)%nat.
Lemma deg_mono D D' m : (D <= D')%nat -> deg_ok D m -> deg_ok D' m.
Proof. unfold deg_ok. lia. Qed.
Lemma deg_scale D c p : Forall (deg_ok D) p -> Forall (deg_ok D) (pscale c p).
Proof. intros H. unfold pscale. apply Forall_map. eapply Forall_impl; [|exact H]. intros m. unfold deg_ok; simpl; auto. Qed.
Lemma deg_mul D E p q : Forall (deg_ok D) p -> Forall (deg_ok E) q -> Forall (deg_ok (D + E)) (pmul p q).
Proof.
  intros Hp Hq. unfold pmul. rewrite Forall_forall in *. intros m Hm. apply in_flat_map in Hm.
  destruct Hm as [a [Ha Hm]]. apply in_map_iff in Hm. destruct Hm as [b [<- Hb]].
  specialize (Hp a Ha). specialize (Hq b Hb). unfold deg_ok in *; simpl. lia.
Qed.
Lemma Forall_imp {A} (P Q : A -> Prop) l : (forall x, P x -> Q x) -> Forall P l -> Forall Q l.
Proof. intros H. apply Forall_impl. exact H. Qed.
Lemma deg_pleg2 n x : Forall (deg_ok 1) x ->
  Forall (deg_ok n) (fst (pleg2 n x)) /\ Forall (deg_ok (S n)) (snd (pleg2 n x)).
Proof.
  intros Hx. induction n as [|n [A B]].
  - simpl. split; [|exact Hx]. repeat constructor.
  - simpl pleg2. destruct (pleg2 n x) as [p q]. simpl in A, B |- *. split; [exact B|].
    apply Forall_app. split; apply deg_scale.
    + apply (deg_mul 1 (S n)); assumption.
    + eapply Forall_imp; [|exact A]. intros m. apply deg_mono. lia.
Qed.
Lemma deg_pleg_sum coefs NP x : Forall (deg_ok 1) x -> Forall (deg_ok (NP - 1)) (pleg_sum coefs NP x).
Proof.
  intros Hx. unfold pleg_sum. rewrite Forall_forall. intros m Hm. apply in_flat_map in Hm. destruct Hm as [n [Hn Hm]].
  apply in_seq in Hn. revert m Hm. rewrite <- Forall_forall. apply deg_scale.
  eapply Forall_imp; [|apply (deg_pleg2 n x Hx)]. intros m. apply deg_mono. lia.
Qed.
(** every expansion is cut off at the ncoefs of its object *)
Lemma deg_x_V a t p : Forall (deg_ok 1) (x_V a t p).
Proof. repeat constructor. Qed.
Lemma deg_x_S a t p : Forall (deg_ok 1) (x_S a t p).
Proof. repeat constructor. Qed.
Lemma deg_exps (o : sobj) (x : expansion -> poly) : bounded_obj o -> (forall e, Forall (deg_ok 1) (x e)) ->
  Forall (deg_ok (ncoefs o - 1)) (flat_map (fun e => pleg_sum (e_coefs e) (e_np e) (x e)) (expansions o)).
Proof.
  intros [_ Ho] Hx. rewrite Forall_forall in Ho |- *. intros m Hm. apply in_flat_map in Hm. destruct Hm as [e [He Hm]].
  specialize (Ho e He). pose proof (deg_pleg_sum (e_coefs e) (e_np e) (x e) (Hx e)) as K. rewrite Forall_forall in K.
  specialize (K m Hm). eapply deg_mono; [|exact K]. lia.
Qed.
Lemma Forall_drop P p : Forall P p -> Forall (fun m => P m /\ mc m <> 0) (drop_zero p).
Proof.
  intros H. rewrite Forall_forall in *. intros m Hm. unfold drop_zero in Hm. apply filter_In in Hm. destruct Hm as [A B].
  split; [auto|]. destruct (Req_EM_T (mc m) 0); [discriminate|assumption].
Qed.

(** ** Wallis *)
Lemma cosintegral_SS n : cosintegral (S (S n)) = (INR n + 1) / (INR n + 2) * cosintegral n.
Proof.
  unfold cosintegral. rewrite Nat.even_succ_succ. destruct (Nat.even n) eqn:E; [|ring].
  apply Nat.even_spec in E. destruct E as [k ->].
  assert (D1 : (2 * k / 2 = k)%nat) by (rewrite Nat.mul_comm; apply Nat.div_mul; lia).
  assert (D2 : (S (S (2 * k)) / 2 = S k)%nat) by (replace (S (S (2 * k))) with (S k * 2)%nat by lia; apply Nat.div_mul; lia).
  rewrite D1, D2. unfold Binomial.C. replace (S (S (2 * k)) - S k)%nat with (S k) by lia. replace (2 * k - k)%nat with k by lia.
  rewrite !fact_simpl, !mult_INR, <- !tech_pow_Rmult.
  pose proof (INR_fact_neq_0 k). pose proof (INR_fact_neq_0 (2 * k)). assert (2 ^ (2 * k) <> 0) by (apply pow_nonzero; lra).
  change (INR 2) with 2. rewrite !S_INR, mult_INR. change (INR 2) with 2. pose proof (pos_INR k). field. repeat split; try assumption; lra.
Qed.

Lemma int_sin_cos_pow n : is_RInt (fun x => sin x * cos x ^ n) 0 (2 * PI) 0.
Proof.
  eapply is_RInt_replace; [|apply (is_RInt_FTC _ (fun x => - (cos x ^ (S n)) / INR (S n)))].
  - rewrite cos_2PI, cos_0. unfold Rdiv. ring.
  - pose proof PI_pos; lra.
  - intros x _. auto_derive; [auto|]. change (Init.Nat.pred (S n)) with n. pose proof (lt_0_INR (S n) ltac:(lia)).
    change (match n with O => 1 | S _ => INR n + 1 end) with (INR (S n)). field. lra.
  - intros x _. apply ex_derive_cont. auto_derive. auto.
Qed.

Lemma wallis n : is_RInt (fun x => cos x ^ n) 0 (2 * PI) (2 * PI * cosintegral n).
Proof.
  assert (H : is_RInt (fun x => cos x ^ n) 0 (2 * PI) (2 * PI * cosintegral n) /\
              is_RInt (fun x => cos x ^ S n) 0 (2 * PI) (2 * PI * cosintegral (S n))); [|apply H].
  induction n as [|n [A B]].
  - split.
    + eapply is_RInt_replace; [|exact (is_RInt_constR 0 (2 * PI) 1)]. unfold cosintegral; simpl. unfold Binomial.C; simpl. field.
    + eapply is_RInt_replace; [|apply (is_RInt_FTC _ sin)].
      * rewrite sin_2PI, sin_0. unfold cosintegral; simpl. ring.
      * pose proof PI_pos; lra.
      * intros x _. auto_derive; [auto|]. ring.
      * intros x _. apply ex_derive_cont. auto_derive. auto.
  - split; [exact B|]. rewrite cosintegral_SS. pose proof (pos_INR n).
    assert (D : is_RInt (fun x => (INR n + 2) * cos x ^ S (S n) - (INR n + 1) * cos x ^ n) 0 (2 * PI) 0).
    { eapply is_RInt_replace; [|apply (is_RInt_FTC _ (fun x => sin x * cos x ^ S n))].
      - rewrite sin_2PI, sin_0. ring.
      - pose proof PI_pos; lra.
      - intros x _. auto_derive; [auto|]. change (Init.Nat.pred (S n)) with n.
        change (match n with O => 1 | S _ => INR n + 1 end) with (INR (S n)). rewrite S_INR.
        pose proof (sin2_cos2 x) as T. unfold Rsqr in T. simpl.
        replace (sin x * (1 * - sin x * ((INR n + 1) * cos x ^ n))) with (- (INR n + 1) * cos x ^ n * (sin x * sin x)) by ring.
        replace (sin x * sin x) with (1 - cos x * cos x) by lra. ring.
      - intros x _. apply ex_derive_cont. auto_derive. auto. }
    eapply is_RInt_extR; [pose proof PI_pos; lra| |].
    2:{ eapply is_RInt_replace; [|apply is_RInt_scalR with (c := / (INR n + 2)); apply is_RInt_plusR; [exact D|];
        apply is_RInt_scalR with (c := INR n + 1); exact A]. field. lra. }
    intros x _. simpl. field. lra.
Qed.

(** ** the azimuth integral *)
Definition no_sp (m : mono) : Prop := m_sp m = 0%nat.
Lemma no_sp_mul p q : Forall no_sp p -> Forall no_sp q -> Forall no_sp (pmul p q).
Proof.
  intros Hp Hq. unfold pmul. rewrite Forall_forall in *. intros m Hm. apply in_flat_map in Hm.
  destruct Hm as [a [Ha Hm]]. apply in_map_iff in Hm. destruct Hm as [b [<- Hb]].
  specialize (Hp a Ha). specialize (Hq b Hb). unfold no_sp in *; simpl. lia.
Qed.
Lemma no_sp_sin2 k : Forall no_sp (ppow sin2_phi k).
Proof. induction k; [repeat constructor|]. cbn [ppow]. apply no_sp_mul; [repeat constructor|exact IHk]. Qed.
Lemma ev_sin2_phi k th ph : ev (ppow sin2_phi k) th ph = sin ph ^ (2 * k).
Proof.
  rewrite ev_pow, pow_mult. f_equal. unfold sin2_phi. rewrite !ev_cons, ev_nil. unfold mev; simpl.
  pose proof (sin2_cos2 ph) as T. unfold Rsqr in T. lra.
Qed.
Lemma ev_sin2_theta k th ph : ev (ppow sin2_theta k) th ph = sin th ^ (2 * k).
Proof.
  rewrite ev_pow, pow_mult. f_equal. unfold sin2_theta. rewrite !ev_cons, ev_nil. unfold mev; simpl.
  pose proof (sin2_cos2 th) as T. unfold Rsqr in T. lra.
Qed.

(** sin(phi) times a polynomial in cos(phi) integrates to 0 *)
Lemma int_sin_poly p th : Forall no_sp p -> is_RInt (fun ph => sin ph * ev p th ph) 0 (2 * PI) 0.
Proof.
  induction p as [|m p IH]; intros H.
  - eapply is_RInt_extR; [pose proof PI_pos; lra| |eapply is_RInt_replace; [|apply (is_RInt_constR 0 (2 * PI) 0)]].
    + intros x _. rewrite ev_nil. ring.
    + ring.
  - inversion H; subst. eapply is_RInt_extR; [pose proof PI_pos; lra| |].
    2:{ eapply is_RInt_replace; [|apply is_RInt_plusR; [apply is_RInt_scalR with (c := mc m * (sin th ^ m_st m * cos th ^ m_ct m));
        apply (int_sin_cos_pow (m_cp m))|apply IH; assumption]]. ring. }
    intros x _. rewrite ev_cons. unfold mev. unfold no_sp in *. rewrite H2. simpl. ring.
Qed.

Lemma pass_cos_ev N m th ph : no_sp m -> (m_cp m <= N)%nat ->
  ev (pass_cos N m) th ph = mc m * cosintegral (m_cp m) * (sin th ^ m_st m * cos th ^ m_ct m).
Proof.
  intros Hs Hc. unfold no_sp in Hs. unfold pass_cos. destruct (Nat.eqb_spec (m_cp m) 0) as [E|E].
  - rewrite ev_cons, ev_nil. unfold mev. rewrite Hs, E. unfold cosintegral, Binomial.C; simpl. field.
  - apply Nat.leb_le in Hc. rewrite Hc. rewrite ev_cons, ev_nil. unfold mev; simpl. rewrite Hs. simpl. ring.
Qed.
(** a polynomial in cos(phi) *)
Lemma int_cos_poly N p th ph0 : Forall (fun m => no_sp m /\ (m_cp m <= N)%nat) p ->
  is_RInt (fun ph => ev p th ph) 0 (2 * PI) (2 * PI * ev (flat_map (pass_cos N) p) th ph0).
Proof.
  induction p as [|m p IH]; intros H.
  - eapply is_RInt_replace; [|apply (is_RInt_constR 0 (2 * PI) 0)]. simpl. rewrite ev_nil. ring.
  - inversion H as [|? ? [Hs Hc] Hp]; subst. simpl flat_map. rewrite ev_app, (pass_cos_ev N m th ph0 Hs Hc).
    eapply is_RInt_extR; [pose proof PI_pos; lra| |].
    2:{ eapply is_RInt_replace; [|apply is_RInt_plusR; [apply is_RInt_scalR with (c := mc m * (sin th ^ m_st m * cos th ^ m_ct m));
        apply (wallis (m_cp m))|apply IH; assumption]]. ring. }
    intros x _. rewrite ev_cons. unfold mev. unfold no_sp in Hs. rewrite Hs. simpl. ring.
Qed.

Lemma cp_sin2 k : Forall (fun m => (m_cp m <= 2 * k)%nat /\ Nat.even (m_cp m) = true /\ m_st m = 0%nat /\ m_ct m = 0%nat) (ppow sin2_phi k).
Proof.
  induction k.
  - simpl. repeat constructor.
  - cbn [ppow]. unfold pmul. rewrite Forall_forall in *. intros m Hm. apply in_flat_map in Hm. destruct Hm as [a [Ha Hm]].
    apply in_map_iff in Hm. destruct Hm as [b [<- Hb]]. specialize (IHk b Hb). simpl in Ha.
    destruct Ha as [<-|[<-|[]]]; simpl; destruct IHk as [A [B [D E]]]; repeat split; try lia; exact B.
Qed.

(** properties of the monomials after the sine pass *)
Lemma pass_sin_shape N D m : deg_ok D m -> Forall (fun q => no_sp q /\ (m_cp q <= m_st q)%nat /\
   (mc q <> 0 -> Nat.even (m_cp q) = Nat.even (m_st q)) /\ (m_st q + m_ct q <= D)%nat) (pass_sin N m).
Proof.
  intros [H1 H2]. unfold pass_sin. destruct (Nat.eqb_spec (m_sp m) 0) as [E|E].
  - constructor; [|constructor]. rewrite E in H1. simpl in H1. repeat split; try assumption; try lia. intros _. rewrite H1. reflexivity.
  - destruct (Nat.leb (m_sp m) N); [|repeat constructor; simpl; try lia; intros K; congruence].
    destruct (Nat.even (m_sp m)) eqn:Ev; [|repeat constructor; simpl; try lia; intros K; congruence].
    apply Nat.even_spec in Ev. destruct Ev as [k Ek]. rewrite Ek. rewrite (Nat.mul_comm 2 k), Nat.div_mul by lia.
    simpl pmul. rewrite app_nil_r. apply Forall_map. pose proof (no_sp_sin2 k) as Hs. pose proof (cp_sin2 k) as Hc.
    rewrite Forall_forall in *. intros q Hq. specialize (Hs q Hq). specialize (Hc q Hq). unfold no_sp in *; simpl.
    destruct Hc as [A [B [D' F]]]. repeat split; try lia. intros _. rewrite D', Nat.add_0_r, H1, Ek.
    rewrite !Nat.even_add, B. rewrite Nat.even_mul. simpl. destruct (Nat.even (m_cp m)); reflexivity.
Qed.

(** no exponent above N is introduced *)
Lemma pass_sin_cp N m : (m_sp m + m_cp m <= N)%nat -> Forall (fun q => no_sp q /\ (m_cp q <= N)%nat) (pass_sin N m).
Proof.
  intros H. unfold pass_sin. destruct (Nat.eqb_spec (m_sp m) 0) as [E|E].
  - constructor; [|constructor]. split; [exact E|lia].
  - destruct (Nat.leb (m_sp m) N); [|repeat constructor; simpl; lia].
    destruct (Nat.even (m_sp m)) eqn:Ev; [|repeat constructor; simpl; lia].
    apply Nat.even_spec in Ev. destruct Ev as [k Ek]. rewrite Ek. rewrite (Nat.mul_comm 2 k), Nat.div_mul by lia.
    simpl pmul. rewrite app_nil_r. apply Forall_map. pose proof (no_sp_sin2 k) as Hs. pose proof (cp_sin2 k) as Hc.
    rewrite Forall_forall in *. intros q Hq. specialize (Hs q Hq). specialize (Hc q Hq). unfold no_sp in *; simpl. lia.
Qed.

Lemma pass_sin_int N m th ph0 : (m_sp m + m_cp m <= N)%nat ->
  is_RInt (fun ph => mev m th ph) 0 (2 * PI) (2 * PI * ev (flat_map (pass_cos N) (pass_sin N m)) th ph0).
Proof.
  intros H. pose proof (pass_sin_cp N m H) as Sh.
  unfold pass_sin in *. destruct (Nat.eqb_spec (m_sp m) 0) as [E|E].
  - eapply is_RInt_extR; [pose proof PI_pos; lra| |apply int_cos_poly].
    + intros x _. rewrite ev_cons, ev_nil. ring.
    + exact Sh.
  - assert (Hle : Nat.leb (m_sp m) N = true) by (apply Nat.leb_le; lia). rewrite Hle in *.
    destruct (Nat.even (m_sp m)) eqn:Ev.
    + eapply is_RInt_extR; [pose proof PI_pos; lra| |apply int_cos_poly].
      * intros x _. apply Nat.even_spec in Ev. destruct Ev as [k Ek]. rewrite Ek. rewrite (Nat.mul_comm 2 k), Nat.div_mul by lia.
        rewrite ev_mul, ev_sin2_phi, ev_cons, ev_nil. unfold mev; simpl. rewrite Ek. simpl. ring.
      * exact Sh.
    + assert (Od : Nat.odd (m_sp m) = true) by (rewrite <- Nat.negb_even, Ev; reflexivity).
      apply Nat.odd_spec in Od. destruct Od as [k Ek].
      set (q := pmul [Mo (mc m) 0 (m_cp m) (m_st m) (m_ct m)] (ppow sin2_phi k)).
      assert (Hq : Forall no_sp q) by (apply no_sp_mul; [repeat constructor|apply no_sp_sin2]).
      eapply is_RInt_extR; [pose proof PI_pos; lra| |eapply is_RInt_replace; [|apply (int_sin_poly q th Hq)]].
      * intros x _. unfold q. rewrite ev_mul, ev_sin2_phi, ev_cons, ev_nil. unfold mev; simpl. rewrite Ek.
        replace (2 * k + 1)%nat with (S (2 * k)) by lia. rewrite <- tech_pow_Rmult. simpl. ring.
      * simpl flat_map. rewrite app_nil_r, pass_cos_ev; [simpl; ring|reflexivity|]. simpl. lia.
Qed.

Lemma pass_cos_zero N m th ph : mc m = 0 -> ev (pass_cos N m) th ph = 0.
Proof.
  intros E. unfold pass_cos. destruct (Nat.eqb (m_cp m) 0); [|destruct (Nat.leb (m_cp m) N)];
  rewrite ev_cons, ev_nil; unfold mev; simpl; rewrite E; ring.
Qed.
Lemma ev_pass_cos_drop N p th ph : ev (flat_map (pass_cos N) (drop_zero p)) th ph = ev (flat_map (pass_cos N) p) th ph.
Proof.
  induction p as [|m p IH]; [reflexivity|]. simpl. destruct (Req_EM_T (mc m) 0) as [E|E]; simpl; rewrite !ev_app, IH.
  - rewrite pass_cos_zero by exact E. ring.
  - reflexivity.
Qed.

Lemma integrate_phis_int N p th ph0 : Forall (fun m => (m_sp m + m_cp m <= N)%nat) p ->
  is_RInt (fun ph => ev p th ph) 0 (2 * PI) (2 * PI * ev (integrate_phis N p) th ph0).
Proof.
  intros Hp. unfold integrate_phis. rewrite ev_drop, ev_pass_cos_drop.
  induction p as [|m p IH].
  - eapply is_RInt_replace; [|apply (is_RInt_constR 0 (2 * PI) 0)]. simpl. rewrite ev_nil. ring.
  - inversion Hp; subst. simpl flat_map. rewrite flat_map_app, ev_app.
    eapply is_RInt_replace; [|apply is_RInt_plusR; [apply (pass_sin_int N m th ph0); assumption|apply IH; assumption]]. ring.
Qed.

(** after the integration no azimuth is left and the powers of sin(theta_s) are even *)
Lemma integrate_phis_shape N D p : Forall (deg_ok D) p ->
  Forall (fun q => m_sp q = 0%nat /\ m_cp q = 0%nat /\ Nat.even (m_st q) = true /\ (m_st q + m_ct q <= D)%nat) (integrate_phis N p).
Proof.
  intros Hp. unfold integrate_phis. rewrite Forall_forall. intros q Hq. unfold drop_zero in Hq at 1. apply filter_In in Hq.
  destruct Hq as [Hq Hz]. destruct (Req_EM_T (mc q) 0) as [|Hc]; [discriminate|]. clear Hz.
  apply in_flat_map in Hq. destruct Hq as [m [Hm Hq]]. unfold drop_zero in Hm. apply filter_In in Hm. destruct Hm as [Hm Hz].
  destruct (Req_EM_T (mc m) 0) as [|Hcm]; [discriminate|]. clear Hz. apply in_flat_map in Hm. destruct Hm as [m0 [Hm0 Hm]].
  rewrite Forall_forall in Hp. pose proof (pass_sin_shape N D m0 (Hp m0 Hm0)) as Sh. rewrite Forall_forall in Sh.
  destruct (Sh m Hm) as [A [B [Ev F]]]. specialize (Ev Hcm). unfold no_sp in A.
  unfold pass_cos in Hq. destruct (Nat.eqb_spec (m_cp m) 0) as [E|E].
  - destruct Hq as [<-|[]]. repeat split; try assumption. rewrite <- Ev, E. reflexivity.
  - destruct (Nat.leb (m_cp m) N).
    + destruct Hq as [<-|[]]. simpl in *. repeat split; try assumption. rewrite <- Ev.
      unfold cosintegral in Hc. destruct (Nat.even (m_cp m)); [reflexivity|]. exfalso. apply Hc. ring.
    + destruct Hq as [<-|[]]. simpl in *. exfalso. apply Hc. unfold cosintegral. simpl. rewrite pow_i by lia. ring.
Qed.

Lemma ct_sin2 k : Forall (fun m => (m_ct m <= 2 * k)%nat /\ m_sp m = 0%nat /\ m_cp m = 0%nat /\ m_st m = 0%nat) (ppow sin2_theta k).
Proof.
  induction k.
  - simpl. repeat constructor.
  - cbn [ppow]. unfold pmul. rewrite Forall_forall in *. intros m Hm. apply in_flat_map in Hm. destruct Hm as [a [Ha Hm]].
    apply in_map_iff in Hm. destruct Hm as [b [<- Hb]]. specialize (IHk b Hb). simpl in Ha.
    destruct Ha as [<-|[<-|[]]]; simpl; destruct IHk as [A [B [D E]]]; repeat split; lia.
Qed.

Definition cos_only (D : nat) (m : mono) : Prop :=
  m_sp m = 0%nat /\ m_cp m = 0%nat /\ m_st m = 0%nat /\ (m_ct m <= D)%nat.
Lemma pass_theta_ok N D m th ph : (D <= N - 2)%nat ->
  m_sp m = 0%nat -> m_cp m = 0%nat -> Nat.even (m_st m) = true -> (m_st m + m_ct m <= D)%nat ->
  ev (pass_theta N m) th ph = mev m th ph /\ Forall (cos_only D) (pass_theta N m).
Proof.
  intros HN A B Ev F. unfold pass_theta. destruct (Nat.eqb_spec (m_st m) 0) as [E|E].
  - split; [rewrite ev_cons, ev_nil; ring|]. constructor; [|constructor]. unfold cos_only. repeat split; try assumption; lia.
  - assert (L : Nat.leb (m_st m) (N - 2) = true) by (apply Nat.leb_le; lia). rewrite L, Ev. simpl andb. cbv iota.
    apply Nat.even_spec in Ev. destruct Ev as [k Ek]. rewrite Ek, (Nat.mul_comm 2 k), Nat.div_mul by lia. split.
    + rewrite ev_mul, ev_sin2_theta, ev_cons, ev_nil. unfold mev; simpl. rewrite Ek. simpl. ring.
    + simpl pmul. rewrite app_nil_r. apply Forall_map. pose proof (ct_sin2 k) as K. eapply Forall_imp; [|exact K].
      intros q [Q1 [Q2 [Q3 Q4]]]. unfold cos_only; simpl. repeat split; lia.
Qed.

Definition N_fn (V S : sobj) : nat := (ncoefs S + ncoefs V - 1)%nat.
Lemma expansion_ok V S t0 p0 tex pex th ph : bounded_obj V -> bounded_obj S ->
  is_RInt (fun phs => V_value V t0 p0 th phs * S_value S th phs tex pex) 0 (2 * PI)
          (ev (interaction_expansion V S t0 p0 tex pex) th ph)
  /\ Forall (cos_only (N_fn V S - 1)) (interaction_expansion V S t0 p0 tex pex).
Proof.
  intros HV HS. unfold interaction_expansion.
  set (N := (ncoefs S + ncoefs V)%nat). set (D := (ncoefs V - 1 + (ncoefs S - 1))%nat).
  set (fp := drop_zero (pscale (2 * PI) (pmul (volexp V t0 p0) (brdfexp S tex pex)))).
  assert (Hd : Forall (deg_ok D) fp).
  { unfold fp. eapply Forall_imp; [|apply Forall_drop, deg_scale, deg_mul; [apply deg_exps; [exact HV|]|apply deg_exps; [exact HS|]]].
    - intros m [A _]. exact A.
    - intros e. apply deg_x_V.
    - intros e. apply deg_x_S. }
  destruct HV as [HV1 _], HS as [HS1 _].
  assert (ED : D = (N_fn V S - 1)%nat) by (unfold D, N_fn; lia). rewrite ED in Hd.
  assert (Hd' : Forall (fun m => (m_sp m + m_cp m <= N)%nat) fp).
  { eapply Forall_imp; [|exact Hd]. intros m [Hm1 Hm2]. unfold N_fn, N in *. lia. }
  pose proof (integrate_phis_int N fp th ph Hd') as I.
  pose proof (integrate_phis_shape N (N_fn V S - 1) fp Hd) as Sh.
  set (q := integrate_phis N fp) in *.
  assert (T : ev (flat_map (pass_theta N) q) th ph = ev q th ph /\ Forall (cos_only (N_fn V S - 1)) (flat_map (pass_theta N) q)).
  { clear I. clearbody q. induction q as [|m q IH]; [split; [reflexivity|constructor]|].
    inversion Sh as [|? ? [A [B [Ev F]]] Sh']; subst.
    destruct (pass_theta_ok N (N_fn V S - 1) m th ph ltac:(unfold N, N_fn; lia) A B Ev F) as [P Q].
    destruct (IH Sh') as [P' Q']. simpl flat_map. rewrite ev_app, ev_cons, P, P'. split; [reflexivity|]. apply Forall_app. auto. }
  destruct T as [T1 T2]. split.
  - rewrite ev_drop, T1. pose proof PI_pos as Pp.
    eapply is_RInt_extR; [lra| |eapply is_RInt_replace; [|apply is_RInt_scalR with (c := / (2 * PI)); exact I]].
    + intros x _. unfold fp. rewrite ev_drop, ev_scale, ev_mul, ev_volexp, ev_brdfexp. field. lra.
    + field. lra.
  - eapply Forall_imp; [|apply Forall_drop, T2]. intros m [A _]. exact A.
Qed.

(** ** extraction *)
Definition csum (j : nat) (p : poly) : R :=
  fold_right Rplus 0 (map mc (filter (fun m => Nat.eqb (m_ct m) j) p)).
Lemma csum_cons j m p : csum j (m :: p) = (if Nat.eqb (m_ct m) j then mc m else 0) + csum j p.
Proof. unfold csum; simpl. destruct (Nat.eqb (m_ct m) j); simpl; ring. Qed.
Lemma const_value_app p q a b : const_value p = Ok a -> const_value q = Ok b -> const_value (p ++ q) = Ok (a + b).
Proof.
  unfold const_value. rewrite forallb_app. destruct (forallb is_const p); [|discriminate]. destruct (forallb is_const q); [|discriminate].
  intros Ha Hb. simpl. f_equal. assert (A : fold_right Rplus 0 (map mc p) = a) by congruence.
  assert (B : fold_right Rplus 0 (map mc q) = b) by congruence. rewrite <- A, <- B. clear.
  induction p; simpl; [ring|]. rewrite IHp. ring.
Qed.
Lemma const_value_scale c p a : const_value p = Ok a -> const_value (pscale c p) = Ok (c * a).
Proof.
  unfold const_value. intros H. assert (F : forallb is_const (pscale c p) = forallb is_const p).
  { unfold pscale. clear. induction p; simpl; [reflexivity|]. rewrite IHp. reflexivity. }
  rewrite F. destruct (forallb is_const p); [|discriminate]. f_equal. assert (A : fold_right Rplus 0 (map mc p) = a) by congruence.
  rewrite <- A. clear. unfold pscale. induction p; simpl; [ring|]. rewrite IHp. ring.
Qed.
Lemma psub_value p q a b : const_value p = Ok a -> const_value q = Ok b -> const_value (psub p q) = Ok (a - b).
Proof.
  intros A B. unfold psub. rewrite (const_value_app _ _ a (-1 * b) A (const_value_scale _ _ _ B)). f_equal. ring.
Qed.

Lemma cv_filter D p (f : mono -> bool) (g : mono -> mono) (k : mono -> bool) :
  Forall (cos_only D) p ->
  (forall m, cos_only D m -> f m = k m /\ (f m = true -> is_const (g m) = true /\ mc (g m) = mc m)) ->
  const_value (map g (filter f p)) = Ok (fold_right Rplus 0 (map mc (filter k p))).
Proof.
  intros Hp Hf. unfold const_value. induction p as [|m p IH]; [reflexivity|]. inversion Hp as [|? ? Hm Hp']; subst.
  specialize (IH Hp'). destruct (Hf m Hm) as [A B]. simpl. rewrite <- A. destruct (f m).
  - destruct (B eq_refl) as [B1 B2]. simpl. rewrite B1. simpl. destruct (forallb is_const (map g (filter f p))); [|discriminate].
    f_equal. rewrite B2. f_equal. congruence.
  - exact IH.
Qed.
Lemma cos_only_const D m : cos_only D m -> is_const (without_ct m) = true.
Proof. intros [A [B [E _]]]. unfold is_const; simpl. rewrite A, B, E. reflexivity. Qed.

Lemma xrepl0_value D p : Forall (cos_only D) p -> const_value (xrepl0 p) = Ok (csum 0 p).
Proof.
  intros H. unfold xrepl0. rewrite <- (map_id (filter _ p)). apply (cv_filter D); [exact H|].
  intros m Hm. split; [reflexivity|]. intros E. split; [|reflexivity]. apply Nat.eqb_eq in E.
  destruct Hm as [A [B [F _]]]. unfold is_const. rewrite A, B, F, E. reflexivity.
Qed.

Lemma fold_plus_filter (f g h : mono -> bool) p : (forall m, f m = orb (g m) (h m)) -> (forall m, andb (g m) (h m) = false) ->
  fold_right Rplus 0 (map mc (filter f p)) = fold_right Rplus 0 (map mc (filter g p)) + fold_right Rplus 0 (map mc (filter h p)).
Proof.
  intros H1 H2. induction p as [|m p IH]; simpl; [ring|]. rewrite H1. specialize (H2 m).
  destruct (g m), (h m); simpl in *; try discriminate; rewrite IH; ring.
Qed.

Lemma xrepl1_value N p : Forall (cos_only N) p -> const_value (xrepl1 N p) = Ok (csum 0 p + csum 1 p).
Proof.
  intros H. unfold xrepl1.
  rewrite (cv_filter N p _ without_ct (fun m => orb (Nat.eqb (m_ct m) 0) (Nat.eqb (m_ct m) 1)) H).
  - f_equal. unfold csum. apply fold_plus_filter; [reflexivity|]. intros m. destruct (m_ct m) as [|[|]]; reflexivity.
  - intros m Hm. split.
    + destruct Hm as [_ [_ [_ Hc]]]. apply Nat.leb_le in Hc. rewrite Hc. destruct (m_ct m) as [|[|]]; reflexivity.
    + intros _. split; [eapply cos_only_const, Hm|reflexivity].
Qed.

Lemma xrepln_value D n p : (2 <= n)%nat -> Forall (cos_only D) p -> const_value (xrepl0 (xrepln n p)) = Ok (csum 0 p + csum n p).
Proof.
  intros Hn H. unfold const_value. induction p as [|m p IH]; [simpl; f_equal; unfold csum; simpl; ring|].
  inversion H as [|? ? Hm Hp]; subst. specialize (IH Hp). rewrite !csum_cons.
  change (xrepl0 (xrepln n (m :: p))) with (if Nat.eqb (m_ct (if Nat.eqb (m_ct m) n then without_ct m else m)) 0
    then (if Nat.eqb (m_ct m) n then without_ct m else m) :: xrepl0 (xrepln n p) else xrepl0 (xrepln n p)).
  destruct (Nat.eqb_spec (m_ct m) n) as [E|E].
  - simpl. rewrite (cos_only_const D m Hm). simpl.
    destruct (forallb is_const (xrepl0 (xrepln n p))); [|discriminate]. f_equal.
    assert (K : fold_right Rplus 0 (map mc (xrepl0 (xrepln n p))) = csum 0 p + csum n p) by congruence.
    rewrite K. destruct (Nat.eqb_spec (m_ct m) 0); [lia|]. ring.
  - destruct (Nat.eqb_spec (m_ct m) 0) as [E0|E0].
    + simpl. destruct Hm as [A [B [F _]]]. unfold is_const at 1. rewrite A, B, F, E0. simpl.
      destruct (forallb is_const (xrepl0 (xrepln n p))); [|discriminate]. f_equal.
      assert (K : fold_right Rplus 0 (map mc (xrepl0 (xrepln n p))) = csum 0 p + csum n p) by congruence.
      rewrite K. ring.
    + simpl. rewrite IH. f_equal. ring.
Qed.

Lemma mapM_values {A B} (f : A -> res B) (g : A -> B) l : (forall x, In x l -> f x = Ok (g x)) -> mapM f l = Ok (map g l).
Proof.
  induction l as [|x l IH]; intros H; [reflexivity|]. simpl. rewrite (H x (or_introl eq_refl)). simpl.
  rewrite IH by (intros; apply H; right; assumption). reflexivity.
Qed.

(** the extracted coefficients are the coefficients of the powers of cos(theta_s) *)
Lemma extract_values N p : (1 <= N)%nat -> Forall (cos_only (N - 1)) p ->
  mapM const_value (extract_coefficients N p) = Ok (map (fun n => csum n p) (seq 0 (Nat.max 2 N))).
Proof.
  intros HN H. assert (H' : Forall (cos_only N) p) by (eapply Forall_imp; [|exact H]; intros m; unfold cos_only; intuition lia).
  unfold extract_coefficients. cbn [mapM]. rewrite (xrepl0_value _ p H'). cbn [bind].
  rewrite (psub_value _ _ _ _ (xrepl1_value N p H') (xrepl0_value _ p H')). cbn [bind].
  assert (M : mapM const_value (map (fun n => psub (xrepl0 (xrepln n p)) (xrepl0 p)) (seq 2 (N - 2)))
              = Ok (map (fun n => csum n p) (seq 2 (N - 2)))).
  { assert (G : forall l, (forall n, In n l -> (2 <= n)%nat) ->
      mapM const_value (map (fun n => psub (xrepl0 (xrepln n p)) (xrepl0 p)) l) = Ok (map (fun n => csum n p) l)).
    { induction l as [|n l IH]; intros Hl; [reflexivity|]. simpl map. cbn [mapM].
      rewrite (psub_value _ _ _ _ (xrepln_value N n p (Hl n (or_introl eq_refl)) H') (xrepl0_value _ p H')). cbn [bind].
      rewrite IH by (intros; apply Hl; right; assumption). cbn [bind]. f_equal. f_equal. ring. }
    apply G. intros n Hn. apply in_seq in Hn. lia. }
  rewrite M. cbn [bind]. f_equal.
  replace (Nat.max 2 N) with (2 + (N - 2))%nat by lia. rewrite seq_app, map_app. simpl. f_equal. f_equal. ring.
Qed.

(** evaluation of a list of coefficients as polynomial *)
Definition horner (fn : list R) (x : R) : R :=
  fold_right Rplus 0 (map (fun q => snd q * x ^ fst q) (combine (seq 0 (length fn)) fn)).

Lemma sum_csum p x : forall M, Forall (fun m => (m_ct m < M)%nat) p ->
  fold_right Rplus 0 (map (fun n => csum n p * x ^ n) (seq 0 M)) = fold_right Rplus 0 (map (fun m => mc m * x ^ m_ct m) p).
Proof.
  intros M H. induction p as [|m p IH].
  - simpl. induction (seq 0 M); simpl; [reflexivity|]. rewrite IHl. unfold csum; simpl. ring.
  - inversion H; subst. simpl. rewrite <- IH by assumption.
    assert (G : forall l, NoDup l -> fold_right Rplus 0 (map (fun n => csum n (m :: p) * x ^ n) l)
       = (if in_dec Nat.eq_dec (m_ct m) l then mc m * x ^ m_ct m else 0) + fold_right Rplus 0 (map (fun n => csum n p * x ^ n) l)).
    { induction l as [|n l IHl]; intros Hl; [simpl; ring|]. inversion Hl; subst. simpl map. cbn [fold_right]. rewrite (IHl H5), csum_cons.
      destruct (Nat.eqb_spec (m_ct m) n) as [E|E].
      - subst n. destruct (in_dec Nat.eq_dec (m_ct m) l); [contradiction|].
        destruct (in_dec Nat.eq_dec (m_ct m) (m_ct m :: l)) as [|N]; [ring|]. exfalso; apply N; left; reflexivity.
      - destruct (in_dec Nat.eq_dec (m_ct m) l) as [i|i]; destruct (in_dec Nat.eq_dec (m_ct m) (n :: l)) as [j|j]; try ring.
        + exfalso; apply j; right; exact i.
        + destruct j as [j|j]; [congruence|contradiction]. }
    rewrite G by apply seq_NoDup. destruct (in_dec Nat.eq_dec (m_ct m) (seq 0 M)) as [|N]; [reflexivity|].
    exfalso. apply N. apply in_seq. lia.
Qed.

Lemma combine_seq_map (f : nat -> R) s n : combine (seq s n) (map f (seq s n)) = map (fun k => (k, f k)) (seq s n).
Proof. revert s. induction n; intros s; [reflexivity|]. simpl. rewrite IHn. reflexivity. Qed.

(** C22/C23: the evaluated coefficients represent the azimuth integral *)
Lemma fn_sum V S g t0 p0 tex pex ths :
  bounded_obj V -> bounded_obj S ->
  let '(a, b, c, d) := seen g t0 p0 tex pex in
  exists fn, fnevals V S g t0 p0 tex pex = Ok fn /\ length fn = Nat.max 2 (N_fn V S) /\
    is_RInt (fun phs => V_value V a b ths phs * S_value S ths phs c d) 0 (2 * PI) (horner fn (cos ths)) /\
    (N_fn V S = 1%nat -> nth 1 fn 0 = 0).
Proof.
  intros HV HS. unfold fnevals. destruct (seen g t0 p0 tex pex) as [[[a b] c] d].
  destruct (expansion_ok V S a b c d ths 0 HV HS) as [I Sh].
  assert (HN : (1 <= N_fn V S)%nat) by (destruct HV, HS; unfold N_fn; lia).
  exists (map (fun n => csum n (interaction_expansion V S a b c d)) (seq 0 (Nat.max 2 (N_fn V S)))).
  split; [apply extract_values; assumption|]. split; [rewrite map_length, seq_length; reflexivity|]. split.
  - unfold horner. rewrite map_length, seq_length, combine_seq_map, map_map. cbn [fst snd].
    rewrite sum_csum.
    + eapply is_RInt_replace; [|exact I]. unfold ev. f_equal. apply map_ext_in. intros m Hm. rewrite Forall_forall in Sh.
      destruct (Sh m Hm) as [A [B [E _]]]. unfold mev. rewrite A, B, E. simpl. ring.
    + eapply Forall_imp; [|exact Sh]. intros m [_ [_ [_ Hm]]]. lia.
  - intros E1. rewrite E1 in *. simpl in *. unfold csum.
    assert (F : forall p, Forall (cos_only 0) p -> filter (fun m => Nat.eqb (m_ct m) 1) p = []).
    { clear. induction p as [|m p IH]; intros H; [reflexivity|]. inversion H as [|? ? [_ [_ [_ Hm]]] Hp]; subst. simpl.
      destruct (m_ct m); [|lia]. simpl. apply IH, Hp. }
    rewrite F by exact Sh. reflexivity.
Qed.
