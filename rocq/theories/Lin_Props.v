(** C77: the interaction term of linear combinations of volumes and of surfaces, without restriction on the numbers of
    coefficients. *)
From Coq Require Import Reals List Lra Lia Arith Bool Psatz.
From Coquelicot Require Import Coquelicot.
From Verif Require Import Base Base_Proofs Sca_Model Sca_Spec Sca_Proofs Sca2_Proofs Sca_Props Int_Model Int_Spec Int_Proofs Ei_Proofs Ei2_Proofs Ei3_Proofs Int2_Proofs Int3_Proofs Int_Props.
Import ListNotations.
Local Open Scope R_scope.

Lemma wsum_RInt (A : choice -> R -> R) (P : choice -> R) cs : (forall c, In c cs -> is_RInt (A c) 0 (2 * PI) (P c)) ->
  is_RInt (fun x => wsum (fun c => A c x) cs) 0 (2 * PI) (wsum P cs).
Proof.
  induction cs as [|c cs IH]; intros H.
  - eapply is_RInt_extR; [pose proof PI_pos; lra| |eapply is_RInt_replace; [|apply (is_RInt_constR 0 (2 * PI) 0)]]; [intros; simpl; ring|simpl; ring].
  - eapply is_RInt_extR; [pose proof PI_pos; lra| |apply is_RInt_plusR; [apply is_RInt_scalR with (c := ch_frac c); apply H; left; reflexivity|
      apply IH; intros; apply H; right; assumption]].
    intros x _. cbn [wsum]. ring.
Qed.

(** if the product of the expansions is a weighted sum of products, so is the interaction term *)
Lemma interaction_lin expi expn V S (Vc Sc : choice -> sobj) cs I0 omega tau NormBRDF bsf t_0 p_0 t_ex p_ex :
  is_expi expi -> is_expn expn -> bounded_obj V -> bounded_obj S ->
  (forall c, In c cs -> bounded_obj (Vc c) /\ bounded_obj (Sc c)) ->
  (forall t p ts ps t' p', V_value V t p ts ps * S_value S ts ps t' p' = wsum (fun c => V_value (Vc c) t p ts ps * S_value (Sc c) ts ps t' p') cs) ->
  0 < tau -> 0 < cos t_0 < 1 -> 0 < cos t_ex < 1 ->
  exists v : choice -> R,
    (forall c, In c cs -> interaction expi expn (Vc c) (Sc c) all_variable I0 omega tau NormBRDF bsf t_0 p_0 t_ex p_ex = Ok (Fin (v c))) /\
    interaction expi expn V S all_variable I0 omega tau NormBRDF bsf t_0 p_0 t_ex p_ex = Ok (Fin (wsum v cs)).
Proof.
  intros He Hn HV HS HB HE Ht H0 H1.
  set (F1 := fun c => fin_of (calc_Fint expi expn (Vc c) (Sc c) all_variable tau t_0 p_0 t_ex p_ex)).
  set (F2 := fun c => fin_of (calc_Fint expi expn (Vc c) (Sc c) all_variable tau t_ex p_ex t_0 p_0)).
  set (k := NormBRDF * (1 - bsf) * (I0 * cos t_0 * omega)).
  exists (fun c => k * (exp (- tau / cos t_ex) * F1 c + exp (- tau / cos t_0) * F2 c)).
  assert (A1 : forall c, In c cs -> calc_Fint expi expn (Vc c) (Sc c) all_variable tau t_0 p_0 t_ex p_ex = Ok (Fin (F1 c))
     /\ is_F_int tau (cos t_0) (fun m => azimuth_product (V_value (Vc c) t_0 p_0) (fun ts ps => S_value (Sc c) ts ps t_ex p_ex) (acos m)) (F1 c)).
  { intros c Hc. destruct (HB c Hc) as [B1 B2]. pose proof (calc_Fint_value expi expn (Vc c) (Sc c) all_variable tau t_0 p_0 t_ex p_ex He Hn B1 B2 Ht H0) as X.
    cbn [seen all_variable pick] in X. destruct X as [F [E I]]. unfold F1. rewrite E. split; [reflexivity|exact I]. }
  assert (A2 : forall c, In c cs -> calc_Fint expi expn (Vc c) (Sc c) all_variable tau t_ex p_ex t_0 p_0 = Ok (Fin (F2 c))
     /\ is_F_int tau (cos t_ex) (fun m => azimuth_product (V_value (Vc c) t_ex p_ex) (fun ts ps => S_value (Sc c) ts ps t_0 p_0) (acos m)) (F2 c)).
  { intros c Hc. destruct (HB c Hc) as [B1 B2]. pose proof (calc_Fint_value expi expn (Vc c) (Sc c) all_variable tau t_ex p_ex t_0 p_0 He Hn B1 B2 Ht H1) as X.
    cbn [seen all_variable pick] in X. destruct X as [F [E I]]. unfold F2. rewrite E. split; [reflexivity|exact I]. }
  split.
  - intros c Hc. unfold interaction. destruct (A1 c Hc) as [-> _], (A2 c Hc) as [-> _]. reflexivity.
  - destruct (C74_interaction expi expn V S I0 omega tau NormBRDF bsf t_0 p_0 t_ex p_ex He Hn HV HS Ht H0 H1) as [v [E [G1 [G2 [X [Y D]]]]]].
    assert (Q : forall t p t' p' m, azimuth_product (V_value V t p) (fun ts ps => S_value S ts ps t' p') m =
       wsum (fun c => azimuth_product (V_value (Vc c) t p) (fun ts ps => S_value (Sc c) ts ps t' p') m) cs).
    { intros. unfold azimuth_product at 1. apply is_RInt_unique. eapply is_RInt_extR; [pose proof PI_pos; lra| |
        apply (wsum_RInt (fun c ps => V_value (Vc c) t p m ps * S_value (Sc c) m ps t' p')
                         (fun c => azimuth_product (V_value (Vc c) t p) (fun ts ps => S_value (Sc c) ts ps t' p') m))].
      - intros x _. cbv beta. symmetry. apply HE.
      - intros c Hc. destruct (HB c Hc) as [B1 B2]. exact (product_int (Vc c) (Sc c) t p t' p' m B1 B2). }
    rewrite E. f_equal. f_equal. rewrite D, wsum_lin. unfold k.
    assert (G1 = wsum F1 cs).
    { eapply F_int_unique; [exact X|]. eapply F_int_ext; [|apply (wsum_F_int tau (cos t_0) (fun c m => azimuth_product (V_value (Vc c) t_0 p_0) (fun ts ps => S_value (Sc c) ts ps t_ex p_ex) (acos m)) F1); intros c Hc; apply A1, Hc].
      intros m _. cbv beta. symmetry. apply Q. }
    assert (G2 = wsum F2 cs).
    { eapply F_int_unique; [exact Y|]. eapply F_int_ext; [|apply (wsum_F_int tau (cos t_ex) (fun c m => azimuth_product (V_value (Vc c) t_ex p_ex) (fun ts ps => S_value (Sc c) ts ps t_0 p_0) (acos m)) F2); intros c Hc; apply A2, Hc].
      intros m _. cbv beta. symmetry. apply Q. }
    subst G1 G2. ring.
Qed.

Lemma wsum_mult_l x f cs : x * wsum f cs = wsum (fun c => x * f c) cs.
Proof. induction cs as [|c cs IH]; cbn [wsum]; [ring|]. rewrite <- IH. ring. Qed.
Lemma wsum_mult_r x f cs : wsum f cs * x = wsum (fun c => f c * x) cs.
Proof. induction cs as [|c cs IH]; cbn [wsum]; [ring|]. rewrite <- IH. ring. Qed.
Lemma plain_S n co a ts ps tx px : S_value (plain_obj n co a) ts ps tx px = legexpansion_S co n a ts ps tx px.
Proof. unfold S_value; simpl. ring. Qed.
Lemma plain_V n co a t0 p0 ts ps : V_value (plain_obj n co a) t0 p0 ts ps = legexpansion_V co n a t0 p0 ts ps.
Proof. unfold V_value; simpl. ring. Qed.
Lemma wsum_ext f g cs : (forall c, In c cs -> f c = g c) -> wsum f cs = wsum g cs.
Proof. induction cs as [|c cs IH]; intros H; [reflexivity|]. cbn [wsum]. rewrite (H c) by (left; reflexivity). rewrite IH; [reflexivity|]. intros d Hd. apply H. right. exact Hd. Qed.
Lemma largest_pos cs (m : avec -> nat) c : (forall c, In c cs -> (1 <= ch_ncoefs c)%nat) -> (forall c, In c cs -> largest_ncoefs cs (ch_a c) (m (ch_a c))) ->
  In c cs -> (1 <= m (ch_a c))%nat.
Proof. intros HP HM Hc. destruct (HM c Hc) as [_ H]. specialize (H c Hc eq_refl). specialize (HP c Hc). lia. Qed.

(** the interaction term of a linear combination of surfaces is the weighted sum of the interaction terms of its
    components, each expanded with the largest number of coefficients among the components with the same weights a *)
Theorem C77_lincomb_surface : forall expi expn V cs (m : avec -> nat) I0 omega tau NormBRDF bsf t_0 p_0 t_ex p_ex,
  is_expi expi -> is_expn expn -> bounded_obj V -> cs <> [] -> (forall c, In c cs -> (1 <= ch_ncoefs c)%nat) ->
  (forall c, In c cs -> largest_ncoefs cs (ch_a c) (m (ch_a c))) ->
  0 < tau -> 0 < cos t_0 < 1 -> 0 < cos t_ex < 1 ->
  exists v : choice -> R,
    (forall c, In c cs ->
       interaction expi expn V (plain_obj (m (ch_a c)) (ch_coefs c) (ch_a c)) all_variable
                   I0 omega tau NormBRDF bsf t_0 p_0 t_ex p_ex = Ok (Fin (v c)))
    /\ interaction expi expn V (comb_obj cs default_a_S) all_variable I0 omega tau NormBRDF bsf t_0 p_0 t_ex p_ex
       = Ok (Fin (wsum v cs)).
Proof.
  intros expi expn V cs m I0 omega tau NormBRDF bsf t_0 p_0 t_ex p_ex He Hn HV HC HP HM Ht H0 H1.
  apply (interaction_lin expi expn V (comb_obj cs default_a_S) (fun _ => V) (fun c => plain_obj (m (ch_a c)) (ch_coefs c) (ch_a c)) cs); try assumption.
  - apply comb_bounded. destruct cs as [|c cs]; [congruence|]. constructor. apply HP. left; reflexivity.
  - intros c Hc. split; [exact HV|]. apply plain_bounded. now apply (largest_pos cs m).
  - intros. rewrite comb_S_value. destruct (C24_expansion cs m 0 0 ts ps t' p' HM) as [-> _]. rewrite wsum_mult_l. apply wsum_ext. intros c _. now rewrite plain_S.
Qed.
Print Assumptions C77_lincomb_surface.
(** the same for a linear combination of volumes *)
Theorem C77_lincomb_volume : forall expi expn S cs (m : avec -> nat) I0 omega tau NormBRDF bsf t_0 p_0 t_ex p_ex,
  is_expi expi -> is_expn expn -> bounded_obj S -> cs <> [] -> (forall c, In c cs -> (1 <= ch_ncoefs c)%nat) ->
  (forall c, In c cs -> largest_ncoefs cs (ch_a c) (m (ch_a c))) ->
  0 < tau -> 0 < cos t_0 < 1 -> 0 < cos t_ex < 1 ->
  exists v : choice -> R,
    (forall c, In c cs ->
       interaction expi expn (plain_obj (m (ch_a c)) (ch_coefs c) (ch_a c)) S all_variable
                   I0 omega tau NormBRDF bsf t_0 p_0 t_ex p_ex = Ok (Fin (v c)))
    /\ interaction expi expn (comb_obj cs default_a_V) S all_variable I0 omega tau NormBRDF bsf t_0 p_0 t_ex p_ex
       = Ok (Fin (wsum v cs)).
Proof.
  intros expi expn S cs m I0 omega tau NormBRDF bsf t_0 p_0 t_ex p_ex He Hn HS HC HP HM Ht H0 H1.
  apply (interaction_lin expi expn (comb_obj cs default_a_V) S (fun c => plain_obj (m (ch_a c)) (ch_coefs c) (ch_a c)) (fun _ => S) cs); try assumption.
  - apply comb_bounded. destruct cs as [|c cs]; [congruence|]. constructor. apply HP. left; reflexivity.
  - intros c Hc. split; [|exact HS]. apply plain_bounded. now apply (largest_pos cs m).
  - intros. rewrite comb_V_value. destruct (C24_expansion cs m t p ts ps 0 0 HM) as [_ ->]. rewrite wsum_mult_r. apply wsum_ext. intros c _. now rewrite plain_V.
Qed.
Print Assumptions C77_lincomb_volume.

(** two components with the same weights but different numbers of coefficients: both are expanded with four *)
Example C77_lincomb_example :
  let cs := [Choice (3 / 10) default_a_S 1 iso_coefs (fun _ _ _ _ => 1 / PI);
             Choice (7 / 10) default_a_S 4 (hgV_coefs (1 / 3)) (fun _ _ _ _ => 0)] in
  cs <> [] /\ (forall c, In c cs -> (1 <= ch_ncoefs c)%nat) /\ (forall c, In c cs -> largest_ncoefs cs (ch_a c) ((fun _ => 4%nat) (ch_a c))).
Proof.
  simpl. split; [discriminate|]. split.
  - intros c [<-|[<-|[]]]; simpl; lia.
  - intros c Hc. assert (Ec : ch_a c = default_a_S) by (destruct Hc as [<-|[<-|[]]]; reflexivity). split.
    + exists (Choice (7 / 10) default_a_S 4 (hgV_coefs (1 / 3)) (fun _ _ _ _ => 0)). split; [right; left; reflexivity|]. split; [now rewrite Ec|reflexivity].
    + intros d [<-|[<-|[]]] _; simpl; lia.
Qed.
