(** C172: the analysis of a model shows what its sliders and buttons say.
    C173: the analysis of a model evaluates all contributions with the values of the sliders. *)
From Coq Require Import ZArith QArith Arith Bool String Lia Lqa ZifyNat List.
From Verif Require Import Base Base_Proofs Ini_Model Par_Model Par_Spec Par_Proofs Pos_Model Pos_Spec Pos_Props Anm_Model Anm_Spec.
Import ListNotations.
Local Open Scope string_scope.
Local Open Scope list_scope.

(** ** the widget *)
Section W.
Variables (iq fc : bool) (labels : list (string * string)).
Notation animate := (animate iq fc false).
Notation step := (step iq fc false labels).
Notation run := (run iq fc false labels).

Lemma not_one_get p s : dget string_dec s (not_one p) =
  if string_dec s "bsf" then match dget string_dec s p with Some b => if Qeq_bool b 1 then Some (999 # 1000)%Q else Some b | None => None end else dget string_dec s p.
Proof.
  unfold not_one. destruct (string_dec s "bsf") as [->|N].
  - destruct (dget string_dec "bsf" p) as [b|] eqn:E; [|now rewrite E]. destruct (Qeq_bool b 1); [apply dget_dset_same|exact E].
  - destruct (dget string_dec "bsf" p) as [b|]; auto. destruct (Qeq_bool b 1); auto. apply dget_dset_other. exact N.
Qed.
Lemma lower p k m s : dget string_dec s (not_one (dset string_dec k m p)) = at_end (fun s => dget string_dec s p) k m s.
Proof.
  rewrite not_one_get. unfold at_end. destruct (string_dec s k) as [->|N]; [rewrite dget_dset_same|rewrite dget_dset_other by exact N]; reflexivity.
Qed.
Lemma upper p k m m' s : dget string_dec s (not_one (dset string_dec k m' (not_one (dset string_dec k m p)))) = at_end (fun s => dget string_dec s p) k m' s.
Proof.
  rewrite not_one_get. unfold at_end. destruct (string_dec s k) as [->|N]; [rewrite dget_dset_same; reflexivity|].
  rewrite dget_dset_other by exact N. rewrite lower. unfold at_end. destruct (string_dec s k); [contradiction|].
  destruct (string_dec s "bsf"); auto. destruct (dget string_dec s p) as [b|]; auto. destruct (Qeq_bool b 1) eqn:E; [|now rewrite E]. reflexivity.
Qed.

Lemma fills_names p k e : map name (fills iq fc p k e) = if e_on e then map (fun c => Some (k, c)) (components iq fc) else [].
Proof. unfold fills, components. destruct (e_on e), fc, iq; reflexivity. Qed.
Lemma fills_in p k e k' c lo hi : In (Fill k' c lo hi) (fills iq fc p k e) ->
  k' = k /\ (forall s, dget string_dec s lo = at_end (fun s => dget string_dec s p) k (e_min e) s /\ dget string_dec s hi = at_end (fun s => dget string_dec s p) k (e_max e) s).
Proof.
  intros H. unfold fills in H. destruct (e_on e); [|destruct H].
  assert (Q : k' = k /\ lo = not_one (dset string_dec k (e_min e) p) /\ hi = not_one (dset string_dec k (e_max e) (not_one (dset string_dec k (e_min e) p)))).
  { apply in_app_or in H. destruct H as [[H|[]]|H]; [injection H; auto|]. destruct fc; [|destruct H]. cbn [app] in H.
    destruct H as [H|[H|H]]; try (injection H; auto; fail). destruct iq; [|destruct H]. destruct H as [H|[]]. injection H; auto. }
  destruct Q as (-> & -> & ->). split; auto. intros s. split; [apply lower|apply upper].
Qed.

(** what is preserved by all actions *)
Definition inv (w : wid) : Prop :=
  NoDup (keys (w_ents w)) /\ (forall k e, In (k, e) (w_ents w) -> exists q, dget string_dec k (w_params w) = Some q /\ (q == e_val e)%Q) /\ w_lines w = w_params w /\
  (exists f, w_colls w = f ++ match w_fit w with Some true => [FitLines] | _ => [] end /\ ~ In FitLines f) /\ consistent iq fc w.

Lemma in_dset {V} k (v : V) d k' v' : NoDup (keys d) -> In (k', v') (dset string_dec k v d) -> (k' = k /\ v' = v) \/ (k' <> k /\ In (k', v') d).
Proof.
  intros N H. assert (G := dget_in_nodup string_dec k' v' _ (NoDup_keys_dset string_dec k v d N) H). destruct (string_dec k' k) as [->|X].
  - rewrite dget_dset_same in G. left. split; congruence.
  - right. split; auto. rewrite dget_dset_other in G by exact X. now apply dget_some_in in G.
Qed.
Lemma no_fit f p l : In FitLines (flat_map (fun ke => fills iq fc p (fst ke) (snd ke)) l) -> In FitLines f.
Proof.
  intros H. exfalso. apply in_flat_map in H. destruct H as ([k e] & _ & H). unfold fills in H. cbn [fst snd] in H. destruct (e_on e); [|destruct H].
  cbn in H. destruct H as [H|H]; [discriminate|]. destruct fc; [|destruct H]. cbn in H. destruct H as [H|[H|H]]; try discriminate. destruct iq; [|destruct H]. destruct H as [H|[]]. discriminate.
Qed.
Lemma flat_names p l : map name (flat_map (fun ke => fills iq fc p (fst ke) (snd ke)) l) =
  concat (map (fun ke => if e_on (snd ke) then map (fun c => Some (fst ke, c)) (components iq fc) else []) l).
Proof. induction l as [|[q e'] r IH]; [reflexivity|]. cbn [flat_map map concat fst snd]. now rewrite map_app, fills_names, IH. Qed.
Lemma animate_inv v k e w : NoDup (keys (w_ents w)) -> In (k, e) (w_ents w) -> (v == e_val e)%Q ->
  (forall k' e', In (k', e') (w_ents w) -> k' <> k -> exists q, dget string_dec k' (w_params w) = Some q /\ (q == e_val e')%Q) -> inv (animate v k w).
Proof.
  intros N I Ev H. set (p := dset string_dec k v (w_params w)).
  assert (P : forall k' e', In (k', e') (w_ents w) -> exists q, dget string_dec k' p = Some q /\ (q == e_val e')%Q).
  { intros k' e' X. unfold p. destruct (string_dec k' k) as [->|Y].
    - rewrite dget_dset_same. exists v. split; auto. assert (e' = e); [|now subst e'].
      pose proof (dget_in_nodup string_dec k e _ N I). pose proof (dget_in_nodup string_dec k e' _ N X). congruence.
    - rewrite dget_dset_other by exact Y. now apply H. }
  unfold inv, animate, consistent. cbn [w_ents w_params w_lines w_fit w_colls]. fold p. cbn [clear app]. repeat split; auto.
  - eexists. split; [reflexivity|]. intros X. exact (no_fit [] _ _ X).
  - rewrite map_app, flat_names. f_equal. destruct (w_fit w) as [[]|]; reflexivity.
  - intros k' c lo hi X. apply in_app_or in X. destruct X as [X|X].
    + apply in_flat_map in X. destruct X as ([q e'] & X & Y). cbn [fst snd] in Y. apply fills_in in Y. destruct Y as [-> Y]. exists e'. split; auto.
    + destruct (w_fit w) as [[]|]; [destruct X as [X|[]]; discriminate|destruct X|destruct X].
Qed.
Lemma dset_nodup {V} k (v : V) d : NoDup (keys d) -> NoDup (keys (dset string_dec k v d)).
Proof. apply NoDup_keys_dset. Qed.
Lemma dset_in {V} k (v : V) d : In (k, v) (dset string_dec k v d).
Proof. apply (dget_some_in string_dec). apply dget_dset_same. Qed.
Lemma remove_fit_app f : ~ In FitLines f -> remove_fit (f ++ [FitLines]) = f.
Proof. induction f as [|a f IH]; intros N; [reflexivity|]. cbn. destruct a; [rewrite IH; auto; intros X; apply N; now right|]. exfalso. apply N. now left. Qed.

Lemma step_inv w o : inv w -> inv (fst (step w o)).
Proof.
  intros I. pose proof I as (N & P & L & (f & C & NF) & (K1 & K2 & K3)). destruct o as [k v|t|k u v]; cbn [Anm_Model.step].
  - destruct (dget string_dec k (w_ents w)) as [e|] eqn:E; [|exact I]. cbn [fst]. eapply animate_inv; cbn [w_ents w_params].
    + now apply dset_nodup.
    + apply dset_in.
    + reflexivity.
    + intros k' e' X Y. apply in_dset in X; auto. destruct X as [[-> _]|[_ X]]; [contradiction|auto].
  - destruct (string_dec t indicate) as [_|_].
    + destruct (w_fit w) as [[]|] eqn:F; [| |exact I]; cbn [fst]; unfold inv, consistent; cbn [w_ents w_params w_lines w_fit w_colls].
      * rewrite C, remove_fit_app by exact NF. rewrite C, map_app in K2. apply app_inv_tail in K2. repeat split; auto.
        -- exists f. rewrite app_nil_r. auto.
        -- rewrite app_nil_r. exact K2.
        -- intros k' c lo hi X. apply K3 with c. rewrite C. apply in_or_app. auto.
      * rewrite app_nil_r in C, K2. repeat split; auto.
        -- exists f. rewrite C. auto.
        -- rewrite map_app, K2. reflexivity.
        -- intros k' c lo hi X. apply in_app_or in X. destruct X as [X|[X|[]]]; [|discriminate]. now apply K3 with c.
    + destruct (dget string_dec (resolve labels t) (w_ents w)) as [e|] eqn:E; [|exact I]. cbn [fst]. eapply animate_inv; cbn [w_ents w_params].
      * now apply dset_nodup.
      * apply dset_in.
      * reflexivity.
      * intros k' e' X Y. apply in_dset in X; auto. destruct X as [[-> _]|[_ X]]; [contradiction|auto].
  - destruct (dget string_dec k (w_ents w)) as [e|] eqn:E; [|exact I]. destruct v as [b|]; [|exact I].
    destruct (P k e) as (q & X & Eq); [now apply (dget_some_in string_dec)|].
    rewrite X. cbn [fst]. eapply animate_inv; cbn [w_ents w_params].
    + now apply dset_nodup.
    + apply dset_in.
    + destruct u; exact Eq.
    + intros k' e' Z Y. apply in_dset in Z; auto. destruct Z as [[-> _]|[_ Z]]; [contradiction|auto].
Qed.
Lemma run_inv ops w : inv w -> inv (run w ops).
Proof. revert w. induction ops as [|o r IH]; intros w H; [exact H|]. cbn. apply IH, step_inv, H. Qed.
End W.

Lemma clip_id lo hi v : (lo <= v)%Q -> (v <= hi)%Q -> (clip lo hi v == v)%Q.
Proof.
  intros A B. unfold clip. destruct (Qle_bool v lo) eqn:E; [apply Qle_bool_iff in E; lra|].
  destruct (Qle_bool hi v) eqn:E2; [apply Qle_bool_iff in E2; lra|]. reflexivity.
Qed.
Lemma start_get l defined b k r : NoDup (keys l) -> In (k, r) l -> dget string_dec k (start_params l defined b) = Some (r_start r).
Proof.
  intros N H. unfold start_params. induction l as [|[q r'] l IH]; [destruct H|]. cbn [map app dget fst snd]. inversion N as [|x y A B]; subst.
  destruct (string_dec k q) as [->|X].
  - destruct H as [H|H]; [injection H as ->; reflexivity|]. exfalso. apply A. apply in_map_iff. exists (q, r). auto.
  - destruct H as [H|H]; [congruence|]. now apply IH.
Qed.
Lemma create_ok l defined b hr w : create l defined b hr = Ok w ->
  w = mkwid (start_params l defined b)
        (map (fun kr => (fst kr, mkent (r_lo (snd kr)) (r_hi (snd kr)) (clip (r_lo (snd kr)) (r_hi (snd kr)) (r_start (snd kr))) false)) l)
        (if hr then Some false else None) (start_params l defined b) [].
Proof. unfold create. destruct (grid (length l)); cbn [bind]; [|discriminate]. intros H. injection H as <-. reflexivity. Qed.
Lemma create_inv iq fc l defined b hr w : NoDup (keys l) -> (forall k r, In (k, r) l -> (r_lo r <= r_start r)%Q /\ (r_start r <= r_hi r)%Q) ->
  create l defined b hr = Ok w -> inv iq fc w.
Proof.
  intros N B H. apply create_ok in H. subst w. set (E := map _ l).
  assert (P : forall k e, In (k, e) E -> exists q, dget string_dec k (start_params l defined b) = Some q /\ (q == e_val e)%Q).
  { intros k e X. apply in_map_iff in X. destruct X as ([k' r] & Q & X). cbn [fst snd] in Q. injection Q as <- <-. exists (r_start r). split; [now apply start_get|].
    cbn [e_val]. symmetry. apply clip_id; now apply (B k' r). }
  assert (M : forall f, concat (map (fun ke : string * ent => if e_on (snd ke) then f ke else []) E) = @nil (option (string * comp))).
  { intros f. unfold E. clear. induction l as [|x r IH]; [reflexivity|]. cbn. apply IH. }
  unfold inv, consistent. cbn [w_ents w_params w_lines w_fit w_colls]. repeat split; auto.
  - unfold keys, E. rewrite map_map. exact N.
  - exists []. split; [|intros []]. destruct hr; reflexivity.
  - rewrite M. destruct hr; reflexivity.
  - intros k c lo hi [].
Qed.

(** After any sequence of actions the curves are calculated with the values of the sliders, and the fillings are those of the activated
    buttons, for the current ranges (as long as the collections of the axes are removed one by one from a copy of the list). *)
Theorem C172_consistent : forall iq fc labels l defined b hr w ops, NoDup (keys l) ->
  (forall k r, In (k, r) l -> (r_lo r <= r_start r)%Q /\ (r_start r <= r_hi r)%Q) ->
  create l defined b hr = Ok w -> consistent iq fc (run iq fc false labels w ops).
Proof. intros iq fc labels l defined b hr w ops N B H. apply run_inv. eapply create_inv; eauto. Qed.
Print Assumptions C172_consistent.

(** Parameters without a slider keep their value. *)
Theorem C172_others : forall iq fc live labels l defined b hr w ops s, create l defined b hr = Ok w -> ~ In s (keys l) ->
  dget string_dec s (w_lines (run iq fc live labels w ops)) = dget string_dec s (start_params l defined b).
Proof.
  intros iq fc live labels l defined b hr w ops s H Hs.
  assert (G : forall ops w, (~ In s (keys (w_ents w)) /\ dget string_dec s (w_params w) = dget string_dec s (start_params l defined b) /\
              dget string_dec s (w_lines w) = dget string_dec s (start_params l defined b)) ->
              dget string_dec s (w_lines (run iq fc live labels w ops)) = dget string_dec s (start_params l defined b)).
  { clear w H ops. induction ops as [|o r IH]; intros w (A & B & C); [exact C|]. cbn [Anm_Model.run fold_left]. apply IH. clear IH.
    assert (K : forall k e (E : dget string_dec k (w_ents w) = Some e), s <> k).
    { intros k e E ->. apply A. apply (dget_in_keys string_dec). congruence. }
    assert (U : forall k (e : ent), s <> k -> ~ In s (keys (dset string_dec k e (w_ents w)))) by (intros k e X Y; apply in_keys_dset in Y; tauto).
    destruct o as [k v|t|k u v]; cbn [step].
    - destruct (dget string_dec k (w_ents w)) as [e|] eqn:E; [|auto]. cbn. rewrite !dget_dset_other by eauto. eauto.
    - destruct (string_dec t indicate); [destruct (w_fit w) as [[]|]; auto|]. destruct (dget string_dec (resolve labels t) (w_ents w)) as [e|] eqn:E; [|auto].
      cbn. rewrite !dget_dset_other by eauto. eauto.
    - destruct (dget string_dec k (w_ents w)) as [e|] eqn:E; [|auto]. destruct v as [v|]; [|auto]. destruct (dget string_dec k (w_params w)); [|auto].
      cbn. rewrite !dget_dset_other by eauto. eauto. }
  apply G. apply create_ok in H. subst w. cbn. split; [|auto]. unfold keys in *. rewrite map_map. exact Hs.
Qed.
Print Assumptions C172_others.

(** In particular the bare soil fraction is the one of the fit if it is not among the definitions. *)
Theorem C172_bsf : forall iq fc live labels l defined b hr w ops, create l defined b hr = Ok w -> ~ In "bsf" (keys l) ->
  dget string_dec "bsf" (w_lines (run iq fc live labels w ops)) = if in_dec string_dec "bsf" defined then None else Some b.
Proof.
  intros iq fc live labels l defined b hr w ops H Hs. rewrite (C172_others iq fc live labels l defined b hr w ops "bsf" H Hs). unfold start_params.
  assert (G : forall m, dget string_dec "bsf" (map (fun kr => (fst kr, r_start (snd kr))) l ++ m) = dget string_dec "bsf" m).
  { intros m. clear -Hs. induction l as [|[k r] l IH]; [reflexivity|]. cbn [map app dget fst snd]. destruct (string_dec "bsf" k) as [<-|N]; [exfalso; apply Hs; left; reflexivity|].
    apply IH. intros X. apply Hs. right. exact X. }
  rewrite G. unfold inb. destruct (in_dec string_dec "bsf" defined); reflexivity.
Qed.
Print Assumptions C172_bsf.

(** Moving a slider changes its value, submitting a number changes the boundary it belongs to, and nothing else; other input is refused. *)
Theorem C172_entries : forall iq fc live labels w o, NoDup (keys (w_ents w)) -> (forall k, In k (keys (w_ents w)) -> dget string_dec k (w_params w) <> None) ->
  match o with
  | Click _ => True
  | Slide k v => forall e, In (k, e) (w_ents w) ->
      snd (step iq fc live labels w o) = None /\
      dget string_dec k (w_ents (fst (step iq fc live labels w o))) = Some (mkent (e_min e) (e_max e) v (e_on e)) /\
      forall k', k' <> k -> dget string_dec k' (w_ents (fst (step iq fc live labels w o))) = dget string_dec k' (w_ents w)
  | Bound k upper (Some v) => forall e, In (k, e) (w_ents w) ->
      snd (step iq fc live labels w o) = None /\
      (exists e', dget string_dec k (w_ents (fst (step iq fc live labels w o))) = Some e' /\ e_val e' = e_val e /\ e_on e' = e_on e /\
         if upper then e_min e' = e_min e /\ e_max e' = v else e_min e' = v /\ e_max e' = e_max e) /\
      forall k', k' <> k -> dget string_dec k' (w_ents (fst (step iq fc live labels w o))) = dget string_dec k' (w_ents w)
  | Bound k _ None => In k (keys (w_ents w)) -> step iq fc live labels w o = (w, Some ValueError)
  end.
Proof.
  intros iq fc live labels w o N P. destruct o as [k v|t|k u [v|]]; [|exact I| |].
  - intros e I. cbn [step]. rewrite (dget_in_nodup string_dec k e _ N I). cbn [fst snd animate w_ents]. split; [reflexivity|].
    split; [apply dget_dset_same|]. intros k' D. now apply dget_dset_other.
  - intros e I. cbn [step]. rewrite (dget_in_nodup string_dec k e _ N I).
    destruct (dget string_dec k (w_params w)) as [q|] eqn:Q; [|exfalso; apply (P k); [apply in_map_iff; exists (k, e); auto|exact Q]].
    cbn [fst snd animate w_ents]. split; [reflexivity|]. split.
    + eexists. split; [apply dget_dset_same|]. destruct u; cbn; auto.
    + intros k' D. now apply dget_dset_other.
  - intros I. cbn [step]. destruct (dget string_dec k (w_ents w)) as [e|] eqn:E; [reflexivity|]. exfalso. apply (dget_in_keys string_dec) in I. contradiction.
Qed.
Print Assumptions C172_entries.

(** Pressing the button of a parameter activates or deactivates this parameter and no other one, if the labels of the buttons are
    different from each other and from the names of the parameters. *)
Theorem C172_click : forall iq fc live labels w k e, NoDup (map fst labels) -> NoDup (map snd labels) ->
  (forall t, In t (map snd labels) -> ~ In t (map fst labels) /\ ~ In t (keys (w_ents w))) ->
  NoDup (keys (w_ents w)) -> In (k, e) (w_ents w) -> button_label labels k <> indicate ->
  let w' := fst (step iq fc live labels w (Click (button_label labels k))) in
  snd (step iq fc live labels w (Click (button_label labels k))) = None /\ keys (w_ents w') = keys (w_ents w) /\
  In (k, mkent (e_min e) (e_max e) (e_val e) (negb (e_on e))) (w_ents w') /\
  forall k' e', k' <> k -> (In (k', e') (w_ents w') <-> In (k', e') (w_ents w)).
Proof.
  intros iq fc live labels w k e N1 N2 D N I X.
  assert (R : resolve labels (button_label labels k) = k).
  { unfold resolve, button_label. assert (D' : forall t, In t (map snd labels) -> ~ In t (map fst labels) /\ t <> k).
    { intros t Ht. destruct (D t Ht) as [A B]. split; auto. intros ->. apply B. apply in_map_iff. exists (k, e). auto. }
    clear D X. assert (S : forall ls u, (forall t, In t (map snd ls) -> t <> u) -> fold_left (fun t kv => if string_dec t (snd kv) then fst kv else t) ls u = u).
    { clear. induction ls as [|[a t] ls IH]; intros u H; [reflexivity|]. cbn. destruct (string_dec u t) as [->|_]; [exfalso; apply (H t); cbn; auto|].
      apply IH. intros t' Ht. apply H. now right. }
    assert (G : forall ls t, NoDup (map fst ls) -> NoDup (map snd ls) -> (forall t, In t (map snd ls) -> t <> k) -> dget string_dec k ls = Some t ->
                fold_left (fun t kv => if string_dec t (snd kv) then fst kv else t) ls t = k).
    { clear -S. induction ls as [|[a u] ls IH]; intros t N1 N2 D H; [discriminate|]. cbn [fold_left fst snd]. cbn [dget] in H. inversion N2 as [|x y A B]; subst. inversion N1 as [|x y A' B']; subst.
      destruct (string_dec k a) as [<-|Z].
      - injection H as <-. destruct (string_dec u u) as [_|Y]; [|congruence]. apply S. intros t' Ht. apply D. now right.
      - assert (In t (map snd ls)) by (apply (dget_some_in string_dec) in H; apply in_map_iff; exists (k, t); auto).
        destruct (string_dec t u) as [->|Y]; [contradiction|]. apply IH; auto. intros t' Ht. apply D. now right. }
    destruct (dget string_dec k labels) as [t|] eqn:E.
    - apply G; auto. intros t' Ht. now apply D'.
    - apply S. intros t' Ht. now apply D'. }
  cbn zeta. cbn [step]. destruct (string_dec (button_label labels k) indicate) as [Y|_]; [contradiction|]. rewrite R.
  rewrite (dget_in_nodup string_dec k e _ N I). cbn [fst snd animate w_ents]. assert (Kk : In k (keys (w_ents w))) by (apply in_map_iff; exists (k, e); auto).
  split; [reflexivity|]. split; [|split].
  - rewrite keys_dset. destruct (in_dec string_dec k (keys (w_ents w))); [reflexivity|contradiction].
  - apply dset_in.
  - intros k' e' Z. split; intros Q.
    + apply in_dset in Q; auto. tauto.
    + apply (dget_some_in string_dec). rewrite dget_dset_other by exact Z. now apply dget_in_nodup.
Qed.
Print Assumptions C172_click.
(** With exchanged labels, the button of the one parameter changes the other one. *)
Theorem C172_labels_refuted : forall a b, a <> b -> button_label [(a, b); (b, a)] a = b /\ resolve [(a, b); (b, a)] (button_label [(a, b); (b, a)] a) = b.
Proof.
  intros a b H. unfold button_label, resolve. cbn [dget fold_left fst snd]. destruct (string_dec a a) as [_|N]; [|now destruct N]. split; [reflexivity|].
  destruct (string_dec b b) as [_|N]; [|now destruct N]. destruct (string_dec a a) as [_|N]; [reflexivity|now destruct N].
Qed.
Print Assumptions C172_labels_refuted.

(** With matplotlib before 3.5, collections of previous states remain: if there are at least two, the second one stays whatever slider is moved. *)
Theorem C172_old_refuted : forall iq fc labels w k e v a b r, In (k, e) (w_ents w) -> NoDup (keys (w_ents w)) -> w_colls w = a :: b :: r ->
  hd_error (w_colls (fst (step iq fc true labels w (Slide k v)))) = Some b.
Proof. intros iq fc labels w k e v a b r I N E. cbn [step]. rewrite (dget_in_nodup string_dec k e _ N I). cbn. rewrite E. reflexivity. Qed.
Print Assumptions C172_old_refuted.

(** ** ranges and start values *)
Lemma cmin_le c x : In x (fst c :: snd c) -> (cmin c <= x)%Q.
Proof.
  destruct c as [a l]. unfold cmin. cbn [fst snd]. revert x a. induction l as [|b l IH]; intros x a H; cbn [fold_left].
  - destruct H as [->|[]]. apply Qle_refl.
  - destruct (Qle_bool a b) eqn:E.
    + apply Qle_bool_iff in E. destruct H as [->|[->|H]]; [apply IH; now left| |apply IH; now right]. pose proof (IH a a (or_introl eq_refl)). lra.
    + assert (b <= a)%Q by (destruct (Qlt_le_dec b a) as [L|L]; [lra|apply Qle_bool_iff in L; congruence]).
      destruct H as [->|[->|H]]; [|apply IH; now left|apply IH; now right]. pose proof (IH b b (or_introl eq_refl)). lra.
Qed.
Lemma cmax_ge c x : In x (fst c :: snd c) -> (x <= cmax c)%Q.
Proof.
  destruct c as [a l]. unfold cmax. cbn [fst snd]. revert x a. induction l as [|b l IH]; intros x a H; cbn [fold_left].
  - destruct H as [->|[]]. apply Qle_refl.
  - destruct (Qle_bool a b) eqn:E.
    + apply Qle_bool_iff in E. destruct H as [->|[->|H]]; [|apply IH; now left|apply IH; now right]. pose proof (IH b b (or_introl eq_refl)). lra.
    + assert (b <= a)%Q by (destruct (Qlt_le_dec b a) as [L|L]; [lra|apply Qle_bool_iff in L; congruence]).
      destruct H as [->|[->|H]]; [apply IH; now left| |apply IH; now right]. pose proof (IH a a (or_introl eq_refl)). lra.
Qed.
Lemma cmean_between c lo hi : (forall x, In x (fst c :: snd c) -> (lo <= x)%Q /\ (x <= hi)%Q) -> (lo <= cmean c)%Q /\ (cmean c <= hi)%Q.
Proof.
  destruct c as [a l]. cbn [fst snd]. intros H. unfold cmean. cbn [fst snd]. set (n := inject_Z (Z.of_nat (S (length l)))).
  assert (Pn : (0 < n)%Q) by (unfold n; change 0%Q with (inject_Z 0); rewrite <- Zlt_Qlt; lia).
  assert (G : forall l acc k, (forall x, In x l -> (lo <= x)%Q /\ (x <= hi)%Q) -> (k * lo <= acc)%Q -> (acc <= k * hi)%Q ->
     ((k + inject_Z (Z.of_nat (length l))) * lo <= fold_left Qplus l acc)%Q /\ (fold_left Qplus l acc <= (k + inject_Z (Z.of_nat (length l))) * hi)%Q).
  { clear. induction l as [|b l IH]; intros acc k H A B; cbn [fold_left length].
    - change (inject_Z (Z.of_nat 0)) with 0%Q. split; lra.
    - destruct (H b (or_introl eq_refl)) as [B1 B2]. destruct (IH (acc + b)%Q (k + 1)%Q (fun x Hx => H x (or_intror Hx)) ltac:(lra) ltac:(lra)) as [I1 I2].
      assert (E : (inject_Z (Z.of_nat (S (length l))) == 1 + inject_Z (Z.of_nat (length l)))%Q) by (rewrite Nat2Z.inj_succ, <- Z.add_1_l, inject_Z_plus; reflexivity).
      rewrite E. split; lra. }
  destruct (H a (or_introl eq_refl)) as [A1 A2]. destruct (G l a 1%Q (fun x Hx => H x (or_intror Hx)) ltac:(lra) ltac:(lra)) as [G1 G2].
  assert (En : (n == 1 + inject_Z (Z.of_nat (length l)))%Q) by (unfold n; rewrite Nat2Z.inj_succ, <- Z.add_1_l, inject_Z_plus; reflexivity).
  split; [apply Qle_shift_div_l|apply Qle_shift_div_r]; auto; rewrite En; lra.
Qed.

(** One slider for each fitted or auxiliary parameter; the start values are inside of the ranges if those of the definitions and the results are. *)
Theorem C172_start : forall results cols d l, NoDup (keys d) -> ranges results cols d = Ok l ->
  (forall k s lo hi, In (k, AFit s lo hi) d -> (lo <= s)%Q /\ (s <= hi)%Q /\
     forall r c, results = Some r -> dget string_dec k r = Some c -> (lo <= fst c)%Q /\ (fst c <= hi)%Q) ->
  NoDup (keys l) /\ (forall k, In k (keys l) <-> exists x, In (k, x) d /\ match x with AFit _ _ _ | AAux => True | _ => False end) /\
  forall k r, In (k, r) l -> (r_lo r <= r_start r)%Q /\ (r_start r <= r_hi r)%Q.
Proof.
  intros results cols d. unfold ranges. induction d as [|[k x] d IH]; intros l N H B.
  - cbn in H. injection H as <-. cbn. repeat split; try constructor; try (intros ? []; fail); try contradiction. now intros (x & [] & _).
  - cbn [mapM] in H. destruct (range_of results cols (k, x)) as [a|] eqn:E; [|discriminate]. cbn [bind] in H.
    destruct (mapM (range_of results cols) d) as [m|] eqn:E2; [|discriminate]. cbn [bind concat] in *. injection H as <-.
    inversion N as [|u v Nk Nd]; subst. destruct (IH (concat m) Nd eq_refl) as (I1 & I2 & I3); [intros; eapply B; right; eauto|].
    assert (A : (a = [] /\ match x with AFit _ _ _ | AAux => False | _ => True end) \/
                (exists r, a = [(k, r)] /\ (r_lo r <= r_start r)%Q /\ (r_start r <= r_hi r)%Q /\ match x with AFit _ _ _ | AAux => True | _ => False end)).
    { unfold range_of in E. cbn [fst snd] in E. destruct x as [s lo hi|q| |].
      - right. injection E as <-. eexists. split; [reflexivity|]. cbn [r_lo r_hi r_start]. destruct (B k s lo hi (or_introl eq_refl)) as (B1 & B2 & B3).
        destruct results as [r|]; [|auto]. destruct (dget string_dec k r) as [c|] eqn:G; [|auto]. destruct (B3 r c eq_refl G). auto.
      - left. injection E as <-. auto.
      - right. destruct (dget string_dec k cols) as [c|]; [|discriminate]. injection E as <-. eexists. split; [reflexivity|]. cbn [r_lo r_hi r_start].
        destruct (cmean_between c (cmin c) (cmax c)); auto. intros y Hy. split; [now apply cmin_le|now apply cmax_ge].
      - left. injection E as <-. auto. }
    assert (Kd : ~ In k (keys (concat m))).
    { intros X. apply I2 in X. destruct X as (y & Y & _). apply Nk. apply in_map_iff. exists (k, y). auto. }
    destruct A as [[-> A]|(r & -> & R1 & R2 & A)]; cbn [app].
    + split; [exact I1|]. split; [|exact I3]. intros q. split.
      * intros Q. apply I2 in Q. destruct Q as (y & Y & Z). exists y. split; [now right|auto].
      * intros (y & [Y|Y] & Z); [injection Y as <- <-; destruct x; tauto|]. apply I2. eauto.
    + split; [cbn; constructor; auto|]. split.
      * intros q. split.
        -- intros [<-|Q]; [exists x; split; [now left|auto]|]. apply I2 in Q. destruct Q as (y & Y & Z). exists y. split; [now right|auto].
        -- intros (y & [Y|Y] & Z); [injection Y as <- <-; now left|]. right. apply I2. eauto.
      * intros q r' [Q|Q]; [injection Q as <- <-; auto|now apply (I3 q)].
Qed.
Print Assumptions C172_start.
(** The start value of a fitted parameter is the first of its values, not their mean. *)
Theorem C172_mean_refuted : exists r, ranges (Some [("tau", (1, [3]))])%Q [] [("tau", AFit (1 # 2) 0 5)] = Ok [("tau", r)] /\ (r_start r == 1)%Q /\ (cmean (1, [3]) == 2)%Q.
Proof. eexists. split; [reflexivity|]. split; reflexivity. Qed.
Print Assumptions C172_mean_refuted.
(** A start value outside of its range: the curves do not belong to the position of the slider. *)
Theorem C172_outside_refuted : exists w, create [("tau", mkrange 0 1 2); ("omega", mkrange 0 1 (1 # 2))] ["tau"; "omega"] 0 false = Ok w /\ ~ consistent false true w.
Proof.
  eexists. split; [reflexivity|]. intros (H & _). destruct (H "tau" _ (or_introl eq_refl)) as (q & E & Q). cbn in E. injection E as <-. cbn in Q. discriminate.
Qed.
Print Assumptions C172_outside_refuted.

(** ** the grid *)
Ltac Zify.zify_post_hook ::= Z.to_euclidean_division_equations.
Lemma slider_rows_ok k i col r : col = ((i + 2) / 3)%nat -> In r (slider_rows k i col) -> exists j, (i <= j < i + k)%nat /\ r = (j / 3 + 1)%nat.
Proof.
  revert i col. induction k as [|k IH]; intros i col E H; [destruct H|]. cbn [slider_rows] in H.
  assert (Ec : (if Nat.eqb (Nat.modulo i 3) 0 then S col else col) = (i / 3 + 1)%nat) by (destruct (Nat.eqb_spec (Nat.modulo i 3) 0); lia).
  rewrite Ec in H. destruct H as [<-|H]; [exists i; split; lia|]. apply IH in H; [|lia]. destruct H as (j & Hj & ->). exists j. split; lia.
Qed.
(** The figure can be created exactly for two or more parameters; otherwise there is an IndexError. *)
Theorem C172_grid_refuted : forall n, grid n = if Nat.leb 2 n then Ok tt else Err IndexError.
Proof.
  intros n. destruct (Nat.leb_spec 2 n) as [H|H].
  - unfold grid. assert (M : forall l, (forall r, In r l -> (r < grid_rows n)%nat) -> mapM (fun r => if Nat.ltb r (grid_rows n) then Ok tt else Err IndexError) l = Ok (map (fun _ => tt) l)).
    { induction l as [|r l IH]; intros G; [reflexivity|]. cbn [mapM]. destruct (Nat.ltb_spec r (grid_rows n)) as [_|L]; [|pose proof (G r (or_introl eq_refl)); lia].
      cbn [bind]. rewrite IH; [reflexivity|]. intros; apply G; now right. }
    rewrite M.
    + cbn [bind]. destruct (Nat.ltb_spec 1 (grid_rows n)) as [_|L]; [reflexivity|]. unfold grid_rows in L. lia.
    + intros r Hr. apply slider_rows_ok in Hr; [|reflexivity]. destruct Hr as (j & Hj & ->). unfold grid_rows. lia.
  - destruct n as [|[|n]]; [reflexivity|reflexivity|lia].
Qed.
Print Assumptions C172_grid_refuted.
Example C172_example :
  let labels := [("omega", "single scattering albedo")] in
  exists w, ranges None [("tau", (1 # 10, [3 # 10]))]%Q [("omega", AFit (2 # 10) 0 (4 # 10)); ("tau", AAux); ("N", AConst 1)] = Ok [("omega", mkrange 0 (4 # 10) (2 # 10)); ("tau", mkrange (1 # 10) (3 # 10) (cmean (1 # 10, [3 # 10])%Q))] /\
  create [("omega", mkrange 0 (4 # 10) (2 # 10)); ("tau", mkrange (1 # 10) (3 # 10) (2 # 10))] ["omega"; "tau"; "N"] 1 true = Ok w /\
  map name (w_colls (run true true false labels w [Click "single scattering albedo"; Slide "tau" (3 # 10)%Q; Click "... indicate fit"])) =
    [Some ("omega", Tot); Some ("omega", Surf); Some ("omega", Vol); Some ("omega", Inter); None] /\
  map name (w_colls (run true true true labels w [Click "single scattering albedo"; Slide "tau" (3 # 10)%Q])) =
    [Some ("omega", Surf); Some ("omega", Inter); Some ("omega", Tot); Some ("omega", Surf); Some ("omega", Vol); Some ("omega", Inter)].
Proof. eexists. split; [reflexivity|]. split; [reflexivity|]. split; reflexivity. Qed.

(** ** the values of the interaction term *)
(** names of the fitted or auxiliary parameters, in the order of the definitions *)
Definition varied (d : defdict) : list string := flat_map (fun kv => match snd kv with Fitted | Auxiliary => [fst kv] | _ => [] end) d.
Definition auxiliary (d : defdict) : list string := flat_map (fun kv => match snd kv with Auxiliary => [fst kv] | _ => [] end) d.
Lemma in_varied d k : In k (varied d) <-> In (k, Fitted) d \/ In (k, Auxiliary) d.
Proof.
  unfold varied. rewrite in_flat_map. split.
  - intros ([q e] & A & B). cbn in B. destruct e; cbn in B; try (destruct B; fail); destruct B as [<-|[]]; auto.
  - intros [H|H]; [exists (k, Fitted)|exists (k, Auxiliary)]; split; cbn; auto.
Qed.
Lemma in_aux d k : In k (auxiliary d) <-> In (k, Auxiliary) d.
Proof.
  unfold auxiliary. rewrite in_flat_map. split.
  - intros ([q e] & A & B). cbn in B. destruct e; cbn in B; try (destruct B; fail); destruct B as [<-|[]]; auto.
  - intros H. exists (k, Auxiliary). cbn; auto.
Qed.
Lemma fixed_aux cols d l : fixed_names true cols d = Ok l -> l = auxiliary d.
Proof.
  revert l. induction d as [|[k e] d IH]; intros l H; cbn in *; [congruence|]. destruct e; cbn; auto.
  destruct (inb string_dec k cols); [|discriminate]. destruct (fixed_names true cols d) as [r|]; [|discriminate]. cbn in H. injection H as <-. f_equal. auto.
Qed.
Lemma filter_flat {A B} (f : B -> bool) (g : A -> list B) l : filter f (flat_map g l) = flat_map (fun x => filter f (g x)) l.
Proof. induction l as [|x l IH]; [reflexivity|]. cbn. now rewrite filter_app, IH. Qed.
Lemma nodup_varied d : NoDup (keys d) -> NoDup (varied d).
Proof.
  induction d as [|[k e] d IH]; intros N; [constructor|]. inversion N as [|x l A B]; subst. specialize (IH B).
  assert (K : ~ In k (varied d)) by (intros X; apply A; apply in_varied in X; destruct X as [X|X]; apply in_map_iff; eexists; split; eauto; reflexivity).
  unfold varied in *. cbn [flat_map fst snd]. destruct e; cbn [app]; auto; constructor; auto.
Qed.
Lemma start_split d : Permutation.Permutation (varied d) (start_names d ++ auxiliary d).
Proof.
  induction d as [|[k e] d IH]; [constructor|]. unfold varied, start_names, auxiliary in *. cbn [flat_map fst snd].
  destruct e; cbn [app]; auto. now apply Permutation.Permutation_cons_app.
Qed.

(** the routed auxiliary parameters come after the routed fitted ones in the definitions *)
Definition fitted_first {Val} (m : model Val) (d : defdict) : Prop :=
  forall d1 d2 d3 a f, d = d1 ++ (a, Auxiliary) :: d2 ++ (f, Fitted) :: d3 -> routed m a -> routed m f -> False.

Lemma ordered {Val} (m : model Val) d : fitted_first m d -> filter (kept m) (varied d) = filter (kept m) (start_names d ++ auxiliary d).
Proof.
  induction d as [|[k e] d IH]; intros F; [reflexivity|].
  assert (F' : fitted_first m d) by (intros d1 d2 d3 a f E; apply (F ((k, e) :: d1) d2 d3); now rewrite E).
  specialize (IH F'). rewrite filter_app in *. unfold varied, start_names, auxiliary in *. cbn [flat_map fst snd]. destruct e; cbn [app]; auto.
  - cbn [filter]. destruct (kept m k); cbn [app]; now rewrite IH.
  - cbn [filter]. destruct (kept m k) eqn:K; auto. rewrite IH.
    assert (Z : filter (kept m) (flat_map (fun kv => match snd kv with Fitted => [fst kv] | _ => [] end) d) = []).
    { clear IH. change (flat_map (fun kv => match snd kv with Fitted => [fst kv] | _ => [] end) d) with (start_names d).
      destruct (filter (kept m) (start_names d)) as [|s r] eqn:Q; [reflexivity|]. exfalso.
      assert (I : In s (filter (kept m) (start_names d))) by (rewrite Q; now left). apply filter_In in I. destruct I as [I J]. apply in_start in I.
      apply in_split in I. destruct I as (l1 & l2 & ->). apply (F [] l1 l2 k s); [reflexivity|now apply kept_iff|now apply kept_iff]. }
    rewrite Z. reflexivity.
Qed.
Lemma prefix_of (X S A R : list string) a : X ++ a :: R = S ++ A -> ~ In a S -> exists X', X = S ++ X'.
Proof.
  revert X. induction S as [|s S IH]; intros X E N; [exists X; reflexivity|]. destruct X as [|x X].
  - exfalso. apply N. cbn in E. injection E as -> _. now left.
  - cbn in E. injection E as -> E. destruct (IH X E) as [X' ->]; [intros H; apply N; now right|]. now exists X'.
Qed.
Lemma inverted {Val} (m : model Val) d d1 d2 d3 a f : NoDup (keys d) -> d = d1 ++ (a, Auxiliary) :: d2 ++ (f, Fitted) :: d3 -> routed m a -> routed m f ->
  filter (kept m) (start_names d ++ auxiliary d) <> filter (kept m) (varied d).
Proof.
  intros N E Ra Rf H. pose proof (nodup_varied d N) as NV. pose proof (NoDup_filter (kept m) NV) as NK.
  assert (V : varied d = varied d1 ++ a :: varied d2 ++ f :: varied d3).
  { rewrite E. unfold varied. rewrite flat_map_app. cbn [flat_map fst snd app]. rewrite flat_map_app. reflexivity. }
  apply kept_iff in Ra, Rf.
  assert (W : filter (kept m) (varied d) = filter (kept m) (varied d1) ++ a :: filter (kept m) (varied d2) ++ f :: filter (kept m) (varied d3)).
  { rewrite V, filter_app. cbn [filter]. rewrite Ra, filter_app. cbn [filter]. rewrite Rf. reflexivity. }
  rewrite W in H, NK. rewrite filter_app in H.
  symmetry in H. apply prefix_of in H.
  - destruct H as [X' HX]. assert (I : In f (filter (kept m) (start_names d))).
    { apply filter_In. split; auto. apply in_start. rewrite E. apply in_or_app. right. right. apply in_or_app. right. now left. }
    assert (J : In f (filter (kept m) (varied d1))) by (rewrite HX; apply in_or_app; auto).
    apply in_split in J. destruct J as (l1 & l2 & J). rewrite J in NK. rewrite <- app_assoc in NK. cbn [app] in NK. apply NoDup_remove_2 in NK.
    apply NK. apply in_or_app. right. apply in_or_app. right. right. apply in_or_app. right. now left.
  - intros X. apply filter_In in X. destruct X as [X _]. apply in_start in X.
    assert (Y : In (a, Auxiliary) d) by (rewrite E; apply in_or_app; right; now left). pose proof (unique_entry d a _ _ N X Y). discriminate.
Qed.

Section Order.
Context {Val : Type}.
Variables (m : model Val) (cols : list string) (d : defdict) (old : values Val) (vals : string -> Val) (b : Val) (names : list string) (v : values Val).
Hypothesis N : NoDup (keys d).
Hypothesis HN : param_R_names Val m true cols d = Ok names.
Hypothesis HV : set_calc_values Val m old (analysis_dict d vals b) [] = Ok v.
Lemma names_are : names = filter (kept m) (start_names d ++ auxiliary d).
Proof. apply names_eq in HN. destruct HN as (l & A & ->). apply fixed_aux in A. now subst l. Qed.
Lemma values_are : map snd (v_param v) = map vals (filter (kept m) (varied d)).
Proof.
  rewrite (params_eq _ _ _ _ _ HV). unfold dupdate. cbn [fold_left]. unfold analysis_dict. rewrite filter_app, map_app.
  assert (B : filter (fun kv : string * Val => kept m (fst kv)) (if inb string_dec "bsf" (keys d) then [] else [("bsf", b)]) = []).
  { destruct (inb string_dec "bsf" (keys d)); [reflexivity|]. cbn [filter fst]. destruct (kept m "bsf") eqn:K; [|reflexivity]. apply kept_iff in K. destruct K as [K _].
    exfalso. apply K. unfold reserved_name. tauto. }
  rewrite B. cbn [map]. rewrite app_nil_r. clear. unfold varied. induction d as [|[k e] r IH]; [reflexivity|]. cbn [flat_map fst snd].
  rewrite !filter_app, !map_app, IH. f_equal. destruct e; cbn [filter map fst snd]; try reflexivity; destruct (kept m k); reflexivity.
Qed.
Lemma env_is : interaction_values Val m true cols d old (analysis_dict d vals b) [] = Ok (combine names (map vals (filter (kept m) (varied d)))).
Proof.
  unfold interaction_values. rewrite HN. cbn [bind]. rewrite HV. cbn [bind]. unfold call_args. rewrite values_are.
  assert (L : length names = length (v_param v)).
  { rewrite <- (map_length snd (v_param v)), values_are, map_length, names_are. apply Permutation.Permutation_length.
    assert (P := start_split d). clear -P. revert P. generalize (varied d) (start_names d ++ auxiliary d). intros a c P.
    induction P; cbn; auto.
    - destruct (kept m x); auto.
    - destruct (kept m x), (kept m y); try apply Permutation.Permutation_refl. apply Permutation.perm_swap.
    - eapply Permutation.perm_trans; eauto. }
  rewrite L, Nat.eqb_refl. reflexivity.
Qed.
Lemma combine_get (l : list string) s : NoDup l -> In s l -> dget string_dec s (combine l (map vals l)) = Some (vals s).
Proof.
  induction l as [|x l IH]; intros H I; [destruct I|]. cbn. destruct (string_dec s x) as [->|X]; [reflexivity|]. inversion H; subst. apply IH; auto. destruct I; [congruence|auto].
Qed.
Lemma combine_get_at (l : list string) (k : list string) i s : NoDup l -> length l = length k -> nth_error l i = Some s -> exists q, nth_error k i = Some q /\ dget string_dec s (combine l (map vals k)) = Some (vals q).
Proof.
  revert k i. induction l as [|x l IH]; intros k i H E I; [destruct i; discriminate|]. destruct k as [|q k]; [discriminate|]. cbn in E. inversion H as [|y z A B]; subst.
  destruct i as [|i]; cbn [nth_error] in *.
  - injection I as ->. exists q. cbn. destruct (string_dec s s); [auto|contradiction].
  - destruct (IH k i B ltac:(lia) I) as (q' & Q1 & Q2). exists q'. split; auto. cbn. destruct (string_dec s x) as [->|_]; auto. exfalso. apply A. now apply nth_error_In in I.
Qed.
End Order.

Lemma differ (l k : list string) : length l = length k -> l <> k -> exists i s q, nth_error l i = Some s /\ nth_error k i = Some q /\ s <> q.
Proof.
  revert k. induction l as [|x l IH]; intros [|y k] E D; cbn in E; try lia; [congruence|]. destruct (string_dec x y) as [->|X].
  - destruct (IH k ltac:(lia)) as (i & s & q & A & B & C); [congruence|]. exists (S i), s, q. auto.
  - exists 0%nat, x, y. auto.
Qed.

(** If the fitted parameters are defined before the auxiliary ones, the interaction term is evaluated with the values of the sliders. *)
Theorem C173_order : forall Val (m : model Val) cols d old vals b names v, NoDup (keys d) -> param_R_names Val m true cols d = Ok names ->
  set_calc_values Val m old (analysis_dict d vals b) [] = Ok v -> fitted_first m d ->
  exists env, interaction_values Val m true cols d old (analysis_dict d vals b) [] = Ok env /\
  forall s, provided true d s -> routed m s -> dget string_dec s env = Some (vals s).
Proof.
  intros Val m cols d old vals b names v N HN HV F. eexists. split; [eapply env_is; eauto|]. intros s P R.
  rewrite (names_are m cols d names HN), <- (ordered m d F). apply combine_get; [apply NoDup_filter, nodup_varied, N|].
  apply filter_In. split; [|now apply kept_iff]. apply in_varied. destruct P as [P|[_ P]]; auto.
Qed.
Print Assumptions C173_order.
(** Otherwise it is evaluated with the values of other parameters, whenever their values are different. *)
Theorem C173_exchanged_refuted : forall Val (m : model Val) cols d old vals b names v d1 d2 d3 a f, NoDup (keys d) -> param_R_names Val m true cols d = Ok names ->
  set_calc_values Val m old (analysis_dict d vals b) [] = Ok v -> (forall s q, vals s = vals q -> s = q) ->
  d = d1 ++ (a, Auxiliary) :: d2 ++ (f, Fitted) :: d3 -> routed m a -> routed m f ->
  exists env s x, interaction_values Val m true cols d old (analysis_dict d vals b) [] = Ok env /\
  provided true d s /\ routed m s /\ dget string_dec s env = Some x /\ x <> vals s.
Proof.
  intros Val m cols d old vals b names v d1 d2 d3 a f N HN HV Inj E Ra Rf.
  pose proof (names_are m cols d names HN) as Nm. pose proof (inverted m d d1 d2 d3 a f N E Ra Rf) as D. rewrite <- Nm in D.
  assert (Pm : Permutation.Permutation (filter (kept m) (varied d)) names).
  { rewrite Nm. assert (P := start_split d). clear -P. revert P. generalize (varied d) (start_names d ++ auxiliary d). intros x y P.
    induction P; cbn; auto.
    - destruct (kept m x); auto.
    - destruct (kept m x), (kept m y); try apply Permutation.Permutation_refl. apply Permutation.perm_swap.
    - eapply Permutation.perm_trans; eauto. }
  pose proof (Permutation.Permutation_length Pm) as L. symmetry in L.
  assert (NN : NoDup names) by (eapply Permutation.Permutation_NoDup; [exact Pm|]; apply NoDup_filter, nodup_varied, N).
  destruct (differ _ _ L D) as (i & s & q & A & B & C). exists (combine names (map vals (filter (kept m) (varied d)))), s, (vals q).
  split; [eapply env_is; eauto|].
  assert (I : In s (filter (kept m) (varied d))) by (eapply Permutation.Permutation_in; [apply Permutation.Permutation_sym; exact Pm|]; eapply nth_error_In; eauto).
  apply filter_In in I. destruct I as [I J]. split; [|split; [now apply kept_iff|]].
  - apply in_varied in I. unfold provided. tauto.
  - destruct (combine_get_at vals names _ i s NN L A) as (q' & Q1 & Q2). assert (q' = q) by congruence. subst q'. split; [exact Q2|]. intros H. apply Inj in H. congruence.
Qed.
Print Assumptions C173_exchanged_refuted.
Example C173_example :
  let m := mkmodel ["t"] ["N2"] ["t"] ["N2"] QNum QNum QNum in
  let old := mkvalues ""  "" "" "" [] in
  interaction_values string m true ["t"] [("t", Auxiliary); ("N2", Fitted); ("omega", Fitted)] old (analysis_dict [("t", Auxiliary); ("N2", Fitted); ("omega", Fitted)] (fun s => s) "b") []
    = Ok [("N2", "t"); ("t", "N2")] /\
  interaction_values string m true ["t"] [("N2", Fitted); ("omega", Fitted); ("t", Auxiliary)] old (analysis_dict [("N2", Fitted); ("omega", Fitted); ("t", Auxiliary)] (fun s => s) "b") []
    = Ok [("N2", "N2"); ("t", "t")].
Proof. split; reflexivity. Qed.
