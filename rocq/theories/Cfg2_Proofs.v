(** Lemmas for the checks and conversions of the configuration files. *)
From Coq Require Import List ZArith QArith Arith Bool String Ascii Lia.
From Verif Require Import Base Base_Proofs Str_Model Str_Proofs Con_Model Con_Spec Con_Proofs Cfg_Model Cfg_Spec Cfg_Proofs Cfg2_Spec.
Import ListNotations.
Open Scope nat_scope.
Open Scope string_scope.

(** ** spelling *)
Fixpoint no_upper (w : string) : bool :=
  match w with EmptyString => true | String c r => negb (is_upper c) && no_upper r end.

Lemma lower_char_iff c d : is_upper d = false ->
  (lower_char c = d <-> c = d \/ exists k, (k < 26)%nat /\ c = ascii_of_nat (65 + k) /\ d = ascii_of_nat (97 + k)).
Proof.
  intros Hd. unfold lower_char. split.
  - destruct (is_upper c) eqn:E; [|auto]. intros <-. right. unfold is_upper in E.
    apply andb_true_iff in E. destruct E as [E1 E2]. apply Nat.leb_le in E1, E2.
    exists (nat_of_ascii c - 65). split; [lia|].
    replace (65 + (nat_of_ascii c - 65)) with (nat_of_ascii c) by lia.
    replace (97 + (nat_of_ascii c - 65)) with (nat_of_ascii c + 32) by lia.
    rewrite ascii_nat_embedding. auto.
  - intros [->|(k & Hk & -> & ->)]; [rewrite Hd; reflexivity|].
    unfold is_upper. rewrite !nat_ascii_embedding by lia.
    assert (A : Nat.leb 65 (65 + k) && Nat.leb (65 + k) 90 = true).
    { apply andb_true_iff. split; apply Nat.leb_le; lia. }
    rewrite A. f_equal. lia.
Qed.

Lemma lower_iff w : no_upper w = true -> forall s, lower s = w <-> spells w s.
Proof.
  induction w as [|d w IH]; intros Hw s; destruct s as [|c s]; cbn [lower spells]; try (split; [discriminate|tauto]).
  - tauto.
  - cbn [no_upper] in Hw. apply andb_true_iff in Hw. destruct Hw as [H1 H2]. apply negb_true_iff in H1.
    rewrite <- (lower_char_iff c d H1), <- (IH H2 s). split.
    + intros E. inversion E. auto.
    + intros [-> ->]. reflexivity.
Qed.

Lemma words_means s b : means s b <-> In (lower s) (if b then true_words else false_words).
Proof.
  unfold means. split.
  - intros (w & Hi & Hs). apply lower_iff in Hs; [rewrite Hs; exact Hi|].
    destruct b; cbn in Hi; intuition (subst; reflexivity).
  - intros Hi. exists (lower s). split; [exact Hi|]. apply lower_iff; [|reflexivity].
    destruct b; cbn in Hi; repeat (destruct Hi as [<-|Hi]; [reflexivity|]); destruct Hi.
Qed.

Lemma to_boolean_iff s b : to_boolean (Some s) = Ok (VBool b) <-> means s b.
Proof.
  rewrite words_means. unfold to_boolean.
  destruct (inb string_dec (lower s) ["1"; "yes"; "true"; "on"]) eqn:E1.
  - apply inb_iff in E1. destruct b; [split; auto|]. split; [discriminate|]. intros H2.
    exfalso. cbn in E1, H2. intuition congruence.
  - assert (N : ~ In (lower s) true_words) by (intros Q; apply (proj2 (inb_iff string_dec _ _)) in Q; unfold true_words in Q; congruence).
    destruct (inb string_dec (lower s) ["0"; "no"; "false"; "off"]) eqn:E2.
    + apply inb_iff in E2. destruct b; split; auto; try discriminate. intros Q; contradiction.
    + assert (N2 : ~ In (lower s) false_words) by (intros Q; apply (proj2 (inb_iff string_dec _ _)) in Q; unfold false_words in Q; congruence).
      destruct b; split; try discriminate; intros Q; contradiction.
Qed.

Lemma to_boolean_bool s v : to_boolean s = Ok v -> exists t b, s = Some t /\ v = VBool b /\ means t b.
Proof.
  destruct s as [s|]; [|discriminate]. intros E.
  assert (exists b, v = VBool b) as [b ->].
  { unfold to_boolean in E. destruct (inb _ _ _); [inversion E; eauto|]. destruct (inb _ _ _); inversion E; eauto. }
  exists s, b. split; [reflexivity|]. split; [reflexivity|]. apply to_boolean_iff. exact E.
Qed.

(** ** the two argument sections *)
Lemma inb_false k l : inb string_dec k l = false -> ~ In k l.
Proof. intros E Q. apply (proj2 (inb_iff string_dec _ _)) in Q. congruence. Qed.

Lemma parse_value_argument pfloat pint pp kd k s v :
  pp_int pp = ints kd -> pp_float pp = floats kd -> pp_bool pp = bools kd -> pp_list pp = [] ->
  parse_value pfloat pint pp k s = Ok v -> argument pfloat pint kd k s v.
Proof.
  intros Hi Hf Hb Hl E. unfold parse_value in E. rewrite Hi, Hf, Hb, Hl in E.
  destruct (inb string_dec k (floats kd)) eqn:E1.
  { apply inb_iff in E1. destruct s as [s|]; [|discriminate]. cbn [getfloat] in E.
    destruct (pfloat s) eqn:Ep; inversion E; subst. apply arg_float; assumption. }
  destruct (inb string_dec k (ints kd)) eqn:E2.
  { apply inb_iff in E2. destruct s as [s|]; [|discriminate]. cbn [getint] in E.
    destruct (pint s) eqn:Ep; inversion E; subst. apply arg_int; assumption. }
  destruct (inb string_dec k (bools kd)) eqn:E3.
  { apply inb_iff in E3. apply to_boolean_bool in E. destruct E as (t & b & -> & -> & M). apply arg_bool; assumption. }
  assert (N : ~ In k (ints kd ++ floats kd ++ bools kd)%list).
  { rewrite !in_app_iff. apply inb_false in E1, E2, E3. tauto. }
  change (inb string_dec k []) with false in E. cbn iota in E.
  destruct s as [s|]; [|inversion E; apply arg_none; auto].
  destruct (String.eqb_spec s "None") as [->|Hn]; inversion E; [apply arg_none|apply arg_text]; auto.
Qed.

(** ** the position of the date format *)
Lemma split_first_fmt X F : has_char "=" X = false ->
  split_first "fmt=" (X ++ "fmt=" ++ F) = (X, Some F).
Proof.
  intros H. unfold split_first.
  assert (I : String.index 0 "fmt=" (X ++ "fmt=" ++ F) = Some (String.length X)).
  { induction X as [|c X IH]; [destruct F; reflexivity|].
    cbn [has_char] in H. apply orb_false_iff in H. destruct H as [H1 H2].
    assert (P : String.prefix "fmt=" (String c X ++ "fmt=" ++ F) = false).
    { destruct (String.prefix "fmt=" (String c X ++ "fmt=" ++ F)) eqn:P; [|reflexivity]. exfalso.
      apply prefix_iff in P. destruct P as [r P].
      destruct X as [|c1 [|c2 [|c3 X]]]; cbn [append] in P; inversion P; subst.
      cbn [has_char] in H2. rewrite !orb_false_iff in H2. destruct H2 as (_ & _ & H2 & _). discriminate. }
    change (String c X ++ "fmt=" ++ F) with (String c (X ++ "fmt=" ++ F)) in *.
    unfold String.index; fold String.index. rewrite P, (IH H2). reflexivity. }
  rewrite I. f_equal.
  - clear. generalize ("fmt=" ++ F). intros R. induction X as [|c X IH]; [destruct R; reflexivity|].
    cbn [append String.length String.substring]. rewrite IH. reflexivity.
  - f_equal. rewrite <- slength_app, <- sapp_assoc. apply drop_app.
Qed.

Lemma split_first_none p s : contains p s = false -> split_first p s = (s, None).
Proof. unfold contains, split_first. destruct (String.index 0 p s); [discriminate|reflexivity]. Qed.

Lemma split_fmt_some X pad F F' : has_char "=" X = false -> all_space pad -> no_outer_space X ->
  contains "fmt=" F = false -> trims F F' ->
  split_fmt (X ++ pad ++ "fmt=" ++ F) = (X, Some F').
Proof.
  intros Hx Hp Ho Hf Ht. unfold split_fmt. rewrite <- sapp_assoc, split_first_fmt.
  - rewrite (split_first_none _ _ Hf). cbn [fst]. rewrite (trims_strip F F' Ht).
    rewrite (trims_strip (X ++ pad) X); [reflexivity|]. split; [exact Ho|].
    exists "", pad. repeat split. exact Hp.
  - assert (A : forall a b, has_char "=" (a ++ b) = has_char "=" a || has_char "=" b).
    { induction a as [|c a IH]; intros b; cbn [append has_char]; [reflexivity|]. rewrite IH, orb_assoc. reflexivity. }
    rewrite A, Hx. cbn [orb]. clear - Hp. induction pad as [|c q IH]; [reflexivity|].
    destruct Hp as [H1 H2]. cbn [has_char]. rewrite (IH H2), orb_false_r.
    destruct (Ascii.eqb_spec c "="); [subst; discriminate|reflexivity].
Qed.

Lemma entry_outer fields : no_outer_space (entry fields).
Proof.
  unfold entry. split.
  - intros c r E. inversion E; reflexivity.
  - intros c r E. rewrite <- sapp_assoc in E.
    assert (Q := f_equal rev_string E). rewrite !rev_string_app in Q. inversion Q. reflexivity.
Qed.

Lemma entry_eqsign fields : Forall (fun f => has_char "=" f = false) fields -> has_char "=" (entry fields) = false.
Proof.
  assert (A : forall a b, has_char "=" (a ++ b) = has_char "=" a || has_char "=" b).
  { induction a as [|c a IH]; intros b; cbn [append has_char]; [reflexivity|]. rewrite IH, orb_assoc. reflexivity. }
  intros H. unfold entry. rewrite !A. cbn [has_char]. rewrite orb_false_r.
  change (Ascii.eqb "[" "=") with false. change (Ascii.eqb "]" "=") with false. cbn [orb]. rewrite orb_false_r.
  induction fields as [|f [|g r] IH]; [reflexivity| |].
  - inversion H; assumption.
  - change (join_char "," (f :: g :: r)) with (f ++ String "," (join_char "," (g :: r))).
    inversion H; subst. rewrite A, H2. cbn [orb has_char]. apply IH. assumption.
Qed.

(** a list entry, alone in its section *)
Lemma convert_list_entry D conv fields texts l :
  fields <> [] -> Forall comma_free fields -> Forall2 trims fields texts ->
  Forall2 (fun t v => conv t = Ok v) texts l -> convert_list D conv (entry fields) = Ok (SList D l).
Proof.
  intros Hn Hc Ht F. unfold convert_list, entry. rewrite strip_brackets, inner_brackets.
  rewrite split_join; [|exact Hn|intros s Hs; rewrite Forall_forall in Hc; apply Hc; exact Hs].
  rewrite (mapM_forall2 _ fields l); [reflexivity|]. clear - Ht F. revert l F.
  induction Ht as [|f t fs ts H Ht IH]; intros l F; inversion F; subst; constructor; auto.
  rewrite (trims_strip f t H). assumption.
Qed.

Lemma read_list pfloat pint D strptime resolve t name s : s <> "None" ->
  get_process_specs pfloat pint D strptime resolve [("PROCESS_SPECS", [("list__" ++ t ++ name, Some s)])] =
  do kv <- parse_list_spec pfloat pint D strptime (t ++ name) s; Ok [kv].
Proof.
  intros Hn. unfold get_process_specs, get_section. cbn [dget]. destruct (string_dec _ _); [|congruence].
  cbn [bind specs_loop]. unfold parse_spec. destruct (String.eqb_spec s "None") as [|_]; [contradiction|].
  rewrite startswith_app.
  change (startswith "datetime__" ("list__" ++ t ++ name)) with false.
  change (startswith "path__" ("list__" ++ t ++ name)) with false.
  change (startswith "bool__" ("list__" ++ t ++ name)) with false.
  change (startswith "float__" ("list__" ++ t ++ name)) with false.
  change (startswith "int__" ("list__" ++ t ++ name)) with false. cbn iota.
  change (drop 6 ("list__" ++ t ++ name)) with (t ++ name).
  destruct (parse_list_spec pfloat pint D strptime (t ++ name) s) as [[a b]|]; reflexivity.
Qed.

Lemma forall2_map_r {A B C} (P : A -> B -> Prop) (Q : A -> C -> Prop) (g : B -> C) l m :
  (forall a b, P a b -> Q a (g b)) -> Forall2 P l m -> Forall2 Q l (map g m).
Proof. intros H F. induction F; constructor; auto. Qed.

Lemma contains_app p a b : contains p (a ++ p ++ b) = true.
Proof.
  unfold contains. destruct (String.index 0 p (a ++ p ++ b)) eqn:E; [reflexivity|]. exfalso.
  induction a as [|c a IH].
  - cbn [append] in E. destruct (p ++ b) eqn:Ep.
    + destruct p; [|discriminate]. discriminate.
    + unfold String.index in E; fold String.index in E. assert (P : String.prefix p (String a s) = true).
      { apply prefix_iff. exists b. congruence. }
      rewrite P in E. discriminate.
  - apply IH. cbn [append] in E. unfold String.index in E; fold String.index in E.
    destruct (String.prefix p (String c (a ++ p ++ b))); [discriminate|].
    destruct (String.index 0 p (a ++ p ++ b)); [discriminate|reflexivity].
Qed.
