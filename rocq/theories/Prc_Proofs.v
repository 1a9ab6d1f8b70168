From Coq Require Import String Ascii Arith Bool Lia List.
From Verif Require Import Base Base_Proofs Prc_Model Prc_Spec.
Import ListNotations.
Local Open Scope list_scope.

Lemma upper_char_spec c : upper_char c = c \/ exists k, k < 26 /\ c = ascii_of_nat (97 + k) /\ upper_char c = ascii_of_nat (65 + k).
Proof.
  unfold upper_char. destruct (Nat.leb_spec 97 (nat_of_ascii c)); cbn [andb]; [|left; reflexivity].
  destruct (Nat.leb_spec (nat_of_ascii c) 122); [|left; reflexivity]. right. exists (nat_of_ascii c - 97). split; [lia|]. split.
  - replace (97 + (nat_of_ascii c - 97)) with (nat_of_ascii c) by lia. symmetry. apply ascii_nat_embedding.
  - f_equal. lia.
Qed.
Lemma upper_char_small k : k < 26 -> upper_char (ascii_of_nat (97 + k)) = ascii_of_nat (65 + k).
Proof.
  intros H. unfold upper_char. rewrite nat_ascii_embedding by lia. destruct (Nat.leb_spec 97 (97 + k)); [|lia]. destruct (Nat.leb_spec (97 + k) 122); [|lia]. cbn [andb]. f_equal; lia.
Qed.
Lemma upper_typed w : upper w = w -> forall a, upper a = w <-> typed a w.
Proof.
  induction w as [|c w IH]; intros Hw a.
  - split; [destruct a; [constructor|discriminate]|]. intros H. inversion H. reflexivity.
  - cbn in Hw. injection Hw as Hc Hw. specialize (IH Hw). split.
    + destruct a as [|b a]; [discriminate|]. cbn. intros H. injection H as Hb Ha. apply IH in Ha. destruct (upper_char_spec b) as [E|(k & Hk & E1 & E2)].
      * rewrite E in Hb. subst. constructor. exact Ha.
      * rewrite E2 in Hb. subst b c. apply typed_small; assumption.
    + intros H. remember (String c w) as cw eqn:Ecw. destruct H as [|b a0 w0 Ht|k a0 w0 Hk Ht]; [discriminate| |]; injection Ecw as E1 E2; subst w0.
      * subst b. change (upper (String c a0)) with (String (upper_char c) (upper a0)). rewrite Hc, (proj2 (IH a0) Ht). reflexivity.
      * change (upper (String (ascii_of_nat (97 + k)) a0)) with (String (upper_char (ascii_of_nat (97 + k))) (upper a0)).
        rewrite (upper_char_small k Hk), (proj2 (IH a0) Ht). reflexivity.
Qed.

Lemma default_answer_yes a : default_answer (upper a) = true <-> yes a.
Proof.
  unfold yes. rewrite <- (upper_typed "Y" eq_refl a), <- (upper_typed "YES" eq_refl a). unfold default_answer. cbn [dget].
  destruct (string_dec (upper a) "YES") as [->|N1]; [tauto|]. destruct (string_dec (upper a) "Y") as [->|N2]; [tauto|].
  destruct (string_dec (upper a) "NO"); destruct (string_dec (upper a) "N"); split; try discriminate; tauto.
Qed.

Lemma confirm_spec a1 a2 :
  (confirm_input ["REMOVE"%string] a1 a2 = Callback "REMOVE" <-> typed a1 "REMOVE" /\ yes a2) /\
  (confirm_input ["REMOVE"%string] a1 a2 = Continue <-> yes a1) /\
  (forall k, confirm_input ["REMOVE"%string] a1 a2 = Callback k -> k = "REMOVE"%string).
Proof.
  unfold confirm_input. cbn [existsb]. rewrite orb_false_r. destruct (String.eqb_spec (upper a1) "REMOVE") as [E|N].
  - assert (T : typed a1 "REMOVE") by (apply upper_typed; [reflexivity|exact E]).
    assert (Ny : ~ yes a1).
    { intros Hy. apply default_answer_yes in Hy. rewrite E in Hy. discriminate. }
    destruct (default_answer (upper a2)) eqn:D.
    + apply default_answer_yes in D. rewrite E. repeat split; try tauto; try discriminate; try congruence.
    + assert (Nd : ~ yes a2) by (intros Hy; apply default_answer_yes in Hy; congruence). repeat split; try tauto; try discriminate; try congruence.
  - assert (T : ~ typed a1 "REMOVE") by (intros X; apply N; apply upper_typed; [reflexivity|exact X]).
    destruct (default_answer (upper a1)) eqn:D.
    + apply default_answer_yes in D. repeat split; try tauto; try discriminate; try congruence.
    + assert (Nd : ~ yes a1) by (intros Hy; apply default_answer_yes in Hy; congruence). repeat split; try tauto; try discriminate; try congruence.
Qed.

Lemma mapM_ok {A B} (f : A -> res B) (g : A -> B) l : (forall x, In x l -> f x = Ok (g x)) -> mapM f l = Ok (map g l).
Proof. induction l as [|x l IH]; intros H; [reflexivity|]. cbn. rewrite (H x (or_introl eq_refl)). cbn. rewrite IH by (intros; apply H; right; auto). reflexivity. Qed.
Lemma mapM_err {A B} (f : A -> res B) e l x : (forall y, In y l -> is_ok (f y) = true \/ f y = Err e) -> In x l -> f x = Err e -> mapM f l = Err e.
Proof.
  induction l as [|y l IH]; intros H Hin Hx; [destruct Hin|]. cbn. destruct (H y (or_introl eq_refl)) as [Hy|Hy].
  - destruct (f y) eqn:E; [|discriminate]. cbn. destruct Hin as [->|Hin]; [congruence|]. rewrite IH; auto. intros; apply H; right; auto.
  - rewrite Hy. reflexivity.
Qed.

(** reading a mapped dict *)
Lemma dget_map {A B} (f : string -> A -> B) k (l : list (string * A)) : dget string_dec k (map (fun sd => (fst sd, f (fst sd) (snd sd))) l) = option_map (f k) (dget string_dec k l).
Proof. induction l as [|[s d] l IH]; [reflexivity|]. cbn. destruct (string_dec k s) as [->|]; [reflexivity|exact IH]. Qed.

Lemma override_ok ini cur ov kw : (forall s, In s (keys kw) -> in_config s ini = true) ->
  override_config ini cur ov kw = Ok (map (fun sd => (fst sd, if ov then dupdate string_dec [] (snd sd) else dupdate string_dec (section (fst sd) cur) (dupdate string_dec [] (snd sd)))) kw).
Proof.
  intros H. unfold override_config. rewrite (mapM_ok _ (fun sd => (fst sd, dupdate string_dec [] (snd sd)))).
  - cbn [bind]. destruct ov; [reflexivity|]. rewrite map_map. reflexivity.
  - intros [s d] Hin. rewrite H; [reflexivity|]. apply in_map_iff. exists (s, d). auto.
Qed.
Lemma override_value ini cur ov kw c : wf kw -> override_config ini cur ov kw = Ok c ->
  forall s k, value c s k = match dget string_dec s kw with
                            | Some d => match dget string_dec k d with Some v => Some v | None => if ov then None else value cur s k end
                            | None => None end.
Proof.
  intros [W1 W2] H s k. assert (Hs : forall s, In s (keys kw) -> in_config s ini = true).
  { intros s0 Hin. destruct (in_config s0 ini) eqn:E; [reflexivity|]. exfalso. unfold override_config in H.
    apply in_map_iff in Hin. destruct Hin as (sd & <- & Hin).
    rewrite (mapM_err _ AssertionError kw sd) in H; [discriminate| |exact Hin|rewrite E; reflexivity]. intros y _. destruct (in_config (fst y) ini); [left|right]; reflexivity. }
  rewrite (override_ok ini cur ov kw Hs) in H. injection H as <-. unfold value.
  rewrite (dget_map (fun s d => if ov then dupdate string_dec [] d else dupdate string_dec (section s cur) (dupdate string_dec [] d))).
  destruct (dget string_dec s kw) as [d|] eqn:E; [|reflexivity]. cbn [option_map]. pose proof (W2 s d (dget_some_in string_dec _ _ _ E)) as ND.
  destruct ov.
  - rewrite dget_dupdate by exact ND. destruct (dget string_dec k d); reflexivity.
  - rewrite dget_dupdate by (apply NoDup_keys_dupdate; constructor). rewrite dget_dupdate by exact ND. destruct (dget string_dec k d); [reflexivity|]. cbn [dget].
    unfold section. destruct (dget string_dec s cur); reflexivity.
Qed.

(** ** overriding the parsed file *)
Lemma set_value_value c s k v s' k' : value (set_value c s k v) s' k' = if string_dec s' s then if string_dec k' k then Some v else value c s' k' else value c s' k'.
Proof.
  unfold value, set_value. destruct (string_dec s' s) as [->|N].
  - rewrite dget_dset_same. destruct (string_dec k' k) as [->|N]; [apply dget_dset_same|]. rewrite dget_dset_other by assumption. unfold section. destruct (dget string_dec s c); reflexivity.
  - rewrite dget_dset_other by assumption. reflexivity.
Qed.
Lemma set_values_value s d : forall c s' k', NoDup (keys d) -> value (fold_left (fun c kv => set_value c s (fst kv) (snd kv)) d c) s' k' =
  if string_dec s' s then match dget string_dec k' d with Some v => Some v | None => value c s' k' end else value c s' k'.
Proof.
  induction d as [|[k v] d IH]; intros c s' k' ND; cbn [fold_left].
  - cbn. destruct (string_dec s' s); reflexivity.
  - cbn in ND. inversion ND as [|? ? N1 N2]; subst. rewrite IH by exact N2. rewrite set_value_value. cbn [dget fst snd]. destruct (string_dec s' s) as [e|N]; [|reflexivity].
    destruct (string_dec k' k) as [->|N].
    + rewrite (proj1 (dget_none string_dec k d)) by exact N1. reflexivity.
    + reflexivity.
Qed.
Lemma set_value_in c s k v s' : in_config s c = true -> in_config s' (set_value c s k v) = in_config s' c.
Proof.
  intros H. unfold in_config, set_value. destruct (String.eqb_spec s' "DEFAULT") as [|ND]; [reflexivity|]. cbn [orb].
  assert (E : forall l, existsb (String.eqb s') l = true <-> In s' l).
  { intros l. rewrite existsb_exists. split; [intros (y & Hy & Ey); apply String.eqb_eq in Ey; subst; exact Hy|intros Hy; exists s'; split; [exact Hy|apply String.eqb_refl]]. }
  destruct (existsb (String.eqb s') (keys c)) eqn:X.
  - apply E. apply in_keys_dset. right. apply E. exact X.
  - destruct (existsb (String.eqb s') (keys (dset string_dec s (dset string_dec k v (section s c)) c))) eqn:Y; [|reflexivity].
    apply E, in_keys_dset in Y. destruct Y as [->|Y]; [|apply E in Y; congruence].
    exfalso. unfold in_config in H. destruct (String.eqb_spec s "DEFAULT"); [congruence|]. cbn in H. congruence.
Qed.
Lemma set_values_in s d s' : forall c, in_config s c = true -> in_config s' (fold_left (fun c kv => set_value c s (fst kv) (snd kv)) d c) = in_config s' c.
Proof. induction d as [|[k v] d IH]; intros c H; [reflexivity|]. cbn [fold_left fst snd]. rewrite IH by (rewrite set_value_in; assumption). apply set_value_in. exact H. Qed.

Lemma apply_err kw e : fold_left (fun acc sd => do c <- acc;
   if in_config (fst sd) c then Ok (fold_left (fun c kv => set_value c (fst sd) (fst kv) (snd kv)) (snd sd) c) else Err AssertionError) kw (Err e) = Err e.
Proof. induction kw; [reflexivity|exact IHkw]. Qed.
Lemma apply_value ini kw c : wf kw -> apply_kwargs ini kw = Ok c -> updated ini kw c.
Proof.
  intros [W1 W2]. unfold apply_kwargs. revert ini. induction kw as [|[s d] kw IH]; intros ini H s' k'; cbn [fold_left] in H.
  - injection H as <-. reflexivity.
  - cbn [bind fst snd] in H. destruct (in_config s ini); [|rewrite apply_err in H; discriminate].
    inversion W1 as [|? ? N1 N2]; subst. rewrite (IH N2 (fun s d Hin => W2 s d (or_intror Hin)) _ H s' k').
    rewrite set_values_value by (apply (W2 s d (or_introl eq_refl))). unfold value. cbn [dget]. destruct (string_dec s' s) as [->|N]; [|reflexivity].
    rewrite (proj1 (dget_none string_dec s kw)) by exact N1. reflexivity.
Qed.
Lemma apply_ok kw : forall ini, (forall s, In s (keys kw) -> in_config s ini = true) -> exists c, apply_kwargs ini kw = Ok c.
Proof.
  unfold apply_kwargs. induction kw as [|[s d] kw IH]; intros ini H; cbn [fold_left]; [eexists; reflexivity|]. cbn [bind fst snd]. rewrite (H s (or_introl eq_refl)).
  apply IH. intros s' Hs. rewrite set_values_in by (apply H; left; reflexivity). apply H. right. exact Hs.
Qed.
