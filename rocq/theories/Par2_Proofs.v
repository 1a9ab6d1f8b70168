(** Proofs about the routing of parameters: models built from dicts. *)
From Coq Require Import QArith Bool Arith String List Lia.
From Verif Require Import Base Base_Proofs Ini_Model Ini_Spec Ini_Proofs Par_Model Par_Spec Par_Proofs.
Import ListNotations.
Local Open Scope string_scope.
Local Open Scope list_scope.

Local Notation op0 := (fun (_ : string) (x _ : Rdefinitions.R) => x).
Local Notation fn0 := (fun (_ : string) (x : Rdefinitions.R) => x).

Lemma setdict_parameters d : parameters (setdict d).
Proof.
  intros s v H. unfold setdict in H. apply in_map_iff in H. destruct H as [[k e] [E _]]. simpl in E. injection E as <- <-.
  destruct e; eauto.
Qed.
Lemma keys_setdict d : keys (setdict d) = keys d.
Proof. unfold keys, setdict. rewrite map_map. reflexivity. Qed.
Lemma dget_setdict d s : dget string_dec s (setdict d) =
  match dget string_dec s d with None => None | Some (Number q) => Some (SNum q) | Some _ => Some (SSym s) end.
Proof.
  induction d as [|[k e] d IH]; [reflexivity|]. unfold setdict in *. cbn [map dget fst snd].
  destruct (string_dec s k) as [->|N]; [destruct e; reflexivity|exact IH].
Qed.

(** names left over after the fixed numbers are put in *)
Lemma occurs_xreplace d s e : NoDup (keys d) ->
  (occurs s (xreplace (setdict d) e) <-> occurs s e /\ ~ exists q, In (s, Number q) d).
Proof.
  intros ND. induction e as [q|t|o a IHa b IHb|f a IHa]; simpl.
  - split; [intros H; inversion H|intros [H _]; inversion H].
  - rewrite dget_setdict. destruct (dget string_dec t d) as [en|] eqn:E.
    + assert (In (t, en) d) as I by (apply (dget_some_in string_dec); exact E).
      destruct en; try (split; [intros H; inversion H; subst; split; [constructor|]; intros [q' Hq];
        pose proof (unique_entry d _ _ _ ND I Hq); discriminate|intros [H _]; inversion H; subst; constructor]).
      split; [intros H; inversion H|]. intros [H X]. inversion H; subst. exfalso. apply X. eauto.
    + split; [intros H; inversion H; subst; split; [constructor|]; intros [q' Hq];
        pose proof (dget_in_nodup string_dec _ _ _ ND Hq); congruence|intros [H _]; inversion H; subst; constructor].
  - split.
    + intros H. inversion H; subst; [apply IHa in H1; destruct H1 | apply IHb in H1; destruct H1];
        (split; [solve [apply occ_l; assumption | apply occ_r; assumption]|assumption]).
    + intros [H X]. inversion H; subst; [apply occ_l, IHa | apply occ_r, IHb]; auto.
  - split.
    + intros H. inversion H; subst. apply IHa in H1. destruct H1. split; [apply occ_fun|]; assumption.
    + intros [H X]. inversion H; subst. apply occ_fun, IHa. auto.
Qed.

Section D.
Context {Val : Type}.
Variable parse : string -> option sx.
Variable lam : sx -> (string -> option Val) -> Val.
Variable d : defdict.
Hypothesis ND : NoDup (keys d).
Hypothesis NS : forall s, In s (keys d) -> parse s = Some (SSym s).

Lemma NS' : names_are_symbols parse (setdict d).
Proof. intros s v H. apply NS. rewrite <- keys_setdict. apply in_map_iff. exists (s, v). auto. Qed.

(** the parameters of a single function *)
Lemma single_symbols n kv ch o s : lincomb n = false -> init_V_SRF parse (setdict d) (Props n kv ch) = Ok o ->
  (In s (func_symbols o) <-> names_of parse kv (fun k => ~ not_counted k) s /\ ~ exists q, In (s, Number q) d) /\
  (In s (symbols o) <-> In s (func_symbols o)).
Proof.
  intros L H.
  pose proof (symbols_spec op0 fn0 parse (setdict d) n kv ch o NS' (setdict_parameters d) H s) as SY.
  rewrite init_eq, L in H. cbn [bind] in H.
  destruct (mapM _ kv) as [vals|] eqn:Ev; cbn [bind] in H; [|discriminate].
  injection H as <-. cbn [attributes components symbols fst snd] in SY |- *.
  assert (F : In s (func_symbols (Obj n (map (fun x => (fst x, fst (snd x))) vals) [] ([] ++ flat_map (fun x => snd (snd x)) vals))) <->
     exists k u, In (k, u) (map (fun x => (fst x, fst (snd x))) vals) /\ ~ not_counted k /\ occurs s u).
  { cbn [func_symbols]. rewrite app_nil_r, in_flat_map. split.
    - intros [[k u] [I X]]. cbn [fst snd] in X. destruct (counted k) eqn:Ck; [|destruct X].
      apply counted_spec in Ck. apply (free_occurs op0 fn0) in X. eauto.
    - intros (k & u & I & Ck & X). exists (k, u). split; [exact I|]. cbn [fst snd]. apply counted_spec in Ck. rewrite Ck. apply (free_occurs op0 fn0), X. }
  split.
  - rewrite F. apply kv_spec in Ev. clear SY F. split.
    + intros (k & u & I & Ck & O). apply in_map_iff in I. destruct I as [[k' [u' f']] [E I]]. cbn [fst snd] in E. injection E as -> ->.
      destruct (Forall2_In_r _ _ _ _ _ _ Ev I) as [[k2 v] [I2 [E2 C]]]. cbn [fst snd] in *. subst k2.
      destruct (checkval_spec op0 fn0 parse _ _ _ _ _ NS' (setdict_parameters d) C) as (e & De & -> & _).
      apply (occurs_xreplace d s e ND) in O. destruct O as [O Nn]. split; [|exact Nn]. exists k, v, e. auto.
    + intros [(k & v & e & I & Ck & De & O) Nn].
      destruct (Forall2_In_l _ _ _ _ _ _ Ev I) as [[k2 [u f]] [I2 [E2 C]]]. cbn [fst snd] in *. subst k2.
      destruct (checkval_spec op0 fn0 parse _ _ _ _ _ NS' (setdict_parameters d) C) as (e' & De' & -> & _).
      assert (e' = e) as -> by congruence.
      exists k, (xreplace (setdict d) e). split; [apply in_map_iff; exists (k, (xreplace (setdict d) e, f)); auto|].
      split; [exact Ck|]. apply occurs_xreplace; auto.
  - rewrite F, SY. replace (combine ch []) with (@nil ((pval * props) * (sx * obj))) by (destruct ch; reflexivity).
    split; [intros [X|(? & ? & ? & ? & [] & _)]; exact X|tauto].
Qed.

(** the symbols of omega, tau and NormBRDF *)
Lemma quantity_symbols kv name q s : NoDup (keys kv) -> quantity_of Val parse lam (setdict d) kv name = Ok q ->
  (occurs_in q s <-> names_of parse kv (fun k => k = name) s /\ ~ exists q, In (s, Number q) d).
Proof.
  intros Nk H. unfold quantity_of in H.
  assert (NN : forall v, dget string_dec name kv = Some v -> (names_of parse kv (fun k => k = name) s <-> exists e, denotes parse v = Some e /\ occurs s e)).
  { intros v E. split.
    - intros (k & v' & e & I & -> & De & O). pose proof (dget_in_nodup string_dec _ _ _ Nk I) as X. assert (v' = v) as -> by congruence. eauto.
    - intros (e & De & O). exists name, v, e. split; [apply (dget_some_in string_dec); exact E|auto]. }
  destruct (dget string_dec name kv) as [[t|x]|] eqn:E.
  - specialize (NN _ eq_refl). rewrite NN. rewrite dget_setdict in H.
    destruct (dget string_dec t d) as [en|] eqn:Et.
    + assert (In (t, en) d) as I by (apply (dget_some_in string_dec); exact Et).
      assert (parse t = Some (SSym t)) as Pt by (apply NS, (dget_in_keys string_dec); congruence).
      assert (U : (exists e, denotes parse (VStr t) = Some e /\ occurs s e) <-> s = t).
      { cbn [denotes]. rewrite Pt. split; [intros (e & X & O); injection X as <-; inversion O; reflexivity|intros ->; eexists; split; [reflexivity|constructor]]. }
      rewrite U.
      destruct en; injection H as <-; cbn [occurs_in free_symbols In];
        try (split; [intros [->|[]]; split; [reflexivity|]; intros [q' Hq]; pose proof (unique_entry d _ _ _ ND I Hq); discriminate
                    |intros [-> _]; left; reflexivity]).
      split; [intros []|]. intros [-> X]. apply X. eauto.
    + cbn [denotes]. destruct (parse t) as [e|] eqn:Pt; [|discriminate]. injection H as <-. cbn [occurs_in].
      rewrite (free_occurs op0 fn0), (occurs_xreplace d s e ND). split.
      * intros [O X]. split; [eauto|exact X].
      * intros [(e' & Y & O) X]. injection Y as <-. auto.
  - injection H as <-. rewrite (NN _ eq_refl). cbn [occurs_in denotes]. split; [intros []|]. intros [(e & X & O) _]. injection X as <-. inversion O.
  - injection H as <-. cbn [occurs_in]. split; [intros []|]. intros [(k & v & e & I & -> & _) _].
    pose proof (dget_in_nodup string_dec _ _ _ Nk I). congruence.
Qed.

(** the model of a dict with single functions *)
Lemma model_of_single nV kV cV nS kS cS m : lincomb nV = false -> lincomb nS = false -> NoDup (keys kV) -> NoDup (keys kS) ->
  model_of Val parse lam d (Props nV kV cV) (Props nS kS cS) = Ok m -> forall s,
  (used m s <-> (names_of parse kV (fun k => ~ not_counted k) s \/ names_of parse kS (fun k => ~ not_counted k) s) /\
                (~ exists q, In (s, Number q) d) /\ ~ angle s) /\
  (scattering m s <-> used m s) /\
  (defining m s <-> (names_of parse kV (fun k => k = "omega") s \/ names_of parse kV (fun k => k = "tau") s \/
                     names_of parse kS (fun k => k = "NormBRDF") s) /\ ~ exists q, In (s, Number q) d).
Proof.
  intros LV LS NV NSf H s. unfold model_of in H.
  destruct (init_V_SRF parse (setdict d) (Props nV kV cV)) as [v|] eqn:EV; cbn [bind] in H; [|discriminate].
  destruct (init_V_SRF parse (setdict d) (Props nS kS cS)) as [o|] eqn:ES; cbn [bind] in H; [|discriminate].
  destruct v as [a1 a2 a3 fv] eqn:Ev, o as [b1 b2 b3 fs] eqn:Eo. rewrite <- Ev in EV. rewrite <- Eo in ES.
  rewrite <- Ev, <- Eo in H.
  destruct (quantity_of Val parse lam (setdict d) kV "omega") as [om|] eqn:E1; cbn [bind] in H; [|discriminate].
  destruct (quantity_of Val parse lam (setdict d) kV "tau") as [ta|] eqn:E2; cbn [bind] in H; [|discriminate].
  destruct (quantity_of Val parse lam (setdict d) kS "NormBRDF") as [nn|] eqn:E3; cbn [bind] in H; [|discriminate].
  injection H as <-.
  destruct (single_symbols nV kV cV v s LV EV) as [V1 V2], (single_symbols nS kS cS o s LS ES) as [S1 S2].
  assert (symbols v = fv) as Fv by (rewrite Ev; reflexivity). assert (symbols o = fs) as Fs by (rewrite Eo; reflexivity).
  unfold used, scattering, defining. cbn [m_Vfunc m_Sfunc m_Vsymb m_Ssymb m_omega m_tau m_N].
  rewrite <- Fv, <- Fs.
  pose proof (quantity_symbols kV "omega" om s NV E1). pose proof (quantity_symbols kV "tau" ta s NV E2).
  pose proof (quantity_symbols kS "NormBRDF" nn s NSf E3).
  split; [|split]; tauto.
Qed.
End D.

(** symbols of a scattering object *)
Fixpoint func_symbols_spec (o : obj) : forall s, In s (func_symbols o) <-> symbol_of o s.
Proof.
  destruct o as [n attrs cs fs]. intros s. cbn [func_symbols]. rewrite in_app_iff, in_flat_map.
  assert (G : forall l, In s ((fix go (l : list (sx * obj)) : list string :=
         match l with [] => [] | (w, c) :: r => free_symbols w ++ func_symbols c ++ go r end) l) <->
     exists w c, In (w, c) l /\ (occurs s w \/ symbol_of c s)).
  { induction l as [|[w c] r IH]; [split; [intros []|intros (? & ? & [] & _)]|]. rewrite !in_app_iff, IH, (free_occurs op0 fn0), (func_symbols_spec c s). split.
    - intros [H|[H|(w' & c' & I & H)]]; [exists w, c|exists w, c|exists w', c']; simpl; auto.
    - intros (w' & c' & [E|I] & H); [injection E as -> ->; tauto|right; right; eauto]. }
  rewrite G. split.
  - intros [([k e] & I & H)|(w & c & I & [H|H])].
    + cbn [fst snd] in H. destruct (counted k) eqn:E; [|destruct H]. eapply symbol_attr; [exact I|apply counted_spec, E|apply (free_occurs op0 fn0), H].
    + eapply symbol_weight; eauto.
    + eapply symbol_component; eauto.
  - intros H. inversion H as [? ? ? ? k e ? I C O|? ? ? ? w c ? I O|? ? ? ? w c ? I O]; subst.
    + left. exists (k, e). split; [exact I|]. cbn [fst snd]. rewrite (proj2 (counted_spec k) C). apply (free_occurs op0 fn0), O.
    + right. exists w, c. auto.
    + right. exists w, c. auto.
Qed.
