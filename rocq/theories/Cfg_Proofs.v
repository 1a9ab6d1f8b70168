(** Lemmas for the configuration files. *)
From Coq Require Import List Arith ZArith QArith Bool String Ascii Lia.
From Verif Require Import Base Base_Proofs Str_Model Str_Proofs Con_Model Con_Spec Con_Proofs Cfg_Model Cfg_Spec.
Import ListNotations.
Open Scope string_scope.

Lemma forall2_impl {A B} (P Q : A -> B -> Prop) l m : (forall a b, P a b -> Q a b) -> Forall2 P l m -> Forall2 Q l m.
Proof. intros H F. induction F; constructor; auto. Qed.

Lemma keys_app {A} (a b : list (string * A)) : keys (a ++ b)%list = (keys a ++ keys b)%list.
Proof. apply map_app. Qed.

Lemma dset_new {A} k (v : A) d : ~ In k (keys d) -> dset string_dec k v d = (d ++ [(k, v)])%list.
Proof.
  induction d as [|[a b] d IH]; simpl; [reflexivity|]. intros H.
  destruct (string_dec k a) as [->|]; [exfalso; apply H; left; reflexivity|].
  rewrite IH; [reflexivity|]. intros Hi; apply H; right; exact Hi.
Qed.

Lemma parse_section_nodup f inp : forall acc d, NoDup (keys acc) ->
  parse_section f inp acc = Ok d -> NoDup (keys d).
Proof.
  induction inp as [|[k s] r IH]; simpl; intros acc d Hn E; [inversion E; subst; exact Hn|].
  destruct (f k s); simpl in E; [|discriminate]. eapply IH; [|exact E]. apply NoDup_keys_dset; exact Hn.
Qed.

Lemma ddel_nodup {A} k (d : dict string A) : NoDup (keys d) -> NoDup (keys (ddel string_dec k d)).
Proof.
  intros H. rewrite keys_ddel by exact H. induction (keys d) as [|a l IH]; simpl; [constructor|].
  inversion H; subst. destruct (string_dec k a); [auto|]. constructor; [|auto].
  intros Hi. apply in_remove in Hi. tauto.
Qed.

Lemma group_components_nodup l : forall pd ch, NoDup (keys pd) -> NoDup (keys (fst (group_components l pd ch))).
Proof.
  induction l as [|[k v] r IH]; simpl; intros pd ch H; [exact H|].
  destruct (is_component k); [|apply IH; exact H].
  destruct (endswith "__frac" k); apply IH; apply ddel_nodup; exact H.
Qed.

Lemma group_prefix_nodup p pd : NoDup (keys pd) -> NoDup (keys (group_prefix p pd)).
Proof.
  intros H. unfold group_prefix. destruct (dget string_dec (p ++ "_name") pd) as [[]|]; try exact H.
  destruct (String.eqb s ("LinComb" ++ p)); [|exact H].
  assert (Q := group_components_nodup pd pd [] H).
  destruct (group_components pd pd []) as [pd' ch]. apply NoDup_keys_dset. exact Q.
Qed.

Section O.
Variable pfloat : string -> option Q.
Variable pint : string -> option Z.

Lemma parse_dict_nodup ini pp sec d : parse_dict pfloat pint ini pp sec = Ok d -> NoDup (keys d).
Proof.
  unfold parse_dict. destruct (get_section ini sec); simpl; [|discriminate].
  apply parse_section_nodup. constructor.
Qed.
Lemma parse_defdict_nodup ini sec d : parse_defdict pfloat ini sec = Ok d -> NoDup (keys d).
Proof.
  unfold parse_defdict. destruct (get_section ini sec); simpl; [|discriminate].
  apply parse_section_nodup. constructor.
Qed.
Lemma parse_V_SRF_nodup ini sec d : parse_V_SRF pfloat pint ini sec = Ok d -> NoDup (keys d).
Proof.
  unfold parse_V_SRF. destruct (get_section ini sec); simpl; [|discriminate].
  destruct (parse_section (parse_vsrf_value pfloat pint) a []) eqn:E; simpl; [|discriminate].
  intros Q; inversion Q; subst. apply group_prefix_nodup, group_prefix_nodup.
  eapply parse_section_nodup; [|exact E]. constructor.
Qed.

(** the parser of each of the five sections *)
Definition parser (ini : inifile) (sec : string) : string -> res (dict string val) :=
  if String.eqb sec "least_squares_kwargs" then parse_dict pfloat pint ini lsq_parse_props
  else if String.eqb sec "fits_kwargs" then parse_dict pfloat pint ini fitargs_parse_props
  else if String.eqb sec "defdict" then parse_defdict pfloat ini
  else parse_V_SRF pfloat pint ini.

Lemma parser_nodup ini sec s d : parser ini sec s = Ok d -> NoDup (keys d).
Proof.
  unfold parser. destruct (String.eqb sec _); [apply parse_dict_nodup|].
  destruct (String.eqb sec _); [apply parse_dict_nodup|].
  destruct (String.eqb sec _); [apply parse_defdict_nodup|apply parse_V_SRF_nodup].
Qed.

(** a parser only looks at the section it is given *)
Lemma parser_local ini ini' sec s s' :
  dget string_dec s ini = dget string_dec s' ini' -> parser ini sec s = parser ini' sec s'.
Proof.
  intros H. unfold parser.
  destruct (String.eqb sec "least_squares_kwargs"); [unfold parse_dict, get_section; rewrite H; reflexivity|].
  destruct (String.eqb sec "fits_kwargs"); [unfold parse_dict, get_section; rewrite H; reflexivity|].
  destruct (String.eqb sec "defdict").
  - unfold parse_defdict, get_section; rewrite H; reflexivity.
  - unfold parse_V_SRF, get_section; rewrite H; reflexivity.
Qed.

Lemma get_config_none ini : get_config pfloat pint ini None =
  do lsq <- parser ini "least_squares_kwargs" "least_squares_kwargs";
  do fits <- parser ini "fits_kwargs" "fits_kwargs";
  do dd <- parser ini "defdict" "defdict";
  do v <- parser ini "RT1_V" "RT1_V";
  do s <- parser ini "RT1_SRF" "RT1_SRF";
  Ok (mkconfig lsq dd v s fits).
Proof. reflexivity. Qed.

Definition upd (ini : inifile) (name sec : string) (d : dict string val) : res (dict string val) :=
  update_from ini name sec (parser ini sec) d.

Lemma get_config_some ini name : get_config pfloat pint ini (Some name) =
  do lsq <- parser ini "least_squares_kwargs" "least_squares_kwargs";
  do fits <- parser ini "fits_kwargs" "fits_kwargs";
  do dd <- parser ini "defdict" "defdict";
  do v <- parser ini "RT1_V" "RT1_V";
  do s <- parser ini "RT1_SRF" "RT1_SRF";
  do lsq' <- upd ini name "least_squares_kwargs" lsq;
  do fits' <- upd ini name "fits_kwargs" fits;
  do dd' <- upd ini name "defdict" dd;
  do v' <- upd ini name "RT1_V" v;
  do s' <- upd ini name "RT1_SRF" s;
  Ok (mkconfig lsq' dd' v' s' fits').
Proof. reflexivity. Qed.

Lemma bind_ok {A B} (m : res A) (f : A -> res B) b : bind m f = Ok b -> exists a, m = Ok a /\ f a = Ok b.
Proof. destruct m; simpl; [eauto|discriminate]. Qed.

Lemma get_config_none_ok ini c : get_config pfloat pint ini None = Ok c <->
  forall sec A, In (sec, A) parts -> parser ini sec sec = Ok (A c).
Proof.
  rewrite get_config_none. split.
  - intros E. repeat (apply bind_ok in E; destruct E as (? & ? & E)). inversion E; subst.
    intros sec A H5. simpl in H5.
    repeat (destruct H5 as [H5|H5]; [inversion H5; subst; assumption|]). destruct H5.
  - intros H. unfold parts in H.
    rewrite (H "least_squares_kwargs" c_lsq) by (simpl; tauto). cbn [bind].
    rewrite (H "fits_kwargs" c_fits) by (simpl; tauto). cbn [bind].
    rewrite (H "defdict" c_defdict) by (simpl; tauto). cbn [bind].
    rewrite (H "RT1_V" c_V) by (simpl; tauto). cbn [bind].
    rewrite (H "RT1_SRF" c_SRF) by (simpl; tauto). cbn [bind]. destruct c; reflexivity.
Qed.

Lemma get_config_some_ok ini name c' : get_config pfloat pint ini (Some name) = Ok c' <->
  exists c, get_config pfloat pint ini None = Ok c /\
    forall sec A, In (sec, A) parts -> upd ini name sec (A c) = Ok (A c').
Proof.
  rewrite get_config_some, get_config_none. split.
  - intros E. repeat (apply bind_ok in E; destruct E as (? & ? & E)). inversion E; subst.
    exists (mkconfig x x1 x2 x3 x0). rewrite H, H0, H1, H2, H3. split; [reflexivity|].
    intros sec A Hi. simpl in Hi.
    repeat (destruct Hi as [Hi|Hi]; [inversion Hi; subst; assumption|]). destruct Hi.
  - intros (c & E & H). repeat (apply bind_ok in E; destruct E as (? & ? & E)). inversion E; subst.
    rewrite H0, H1, H2, H3, H4. cbn [bind]. unfold parts in H.
    assert (Q1 := H "least_squares_kwargs" c_lsq ltac:(simpl; tauto)). cbn [c_lsq c_defdict c_V c_SRF c_fits] in Q1. rewrite Q1. cbn [bind].
    assert (Q2 := H "fits_kwargs" c_fits ltac:(simpl; tauto)). cbn [c_lsq c_defdict c_V c_SRF c_fits] in Q2. rewrite Q2. cbn [bind].
    assert (Q3 := H "defdict" c_defdict ltac:(simpl; tauto)). cbn [c_lsq c_defdict c_V c_SRF c_fits] in Q3. rewrite Q3. cbn [bind].
    assert (Q4 := H "RT1_V" c_V ltac:(simpl; tauto)). cbn [c_lsq c_defdict c_V c_SRF c_fits] in Q4. rewrite Q4. cbn [bind].
    assert (Q5 := H "RT1_SRF" c_SRF ltac:(simpl; tauto)). cbn [c_lsq c_defdict c_V c_SRF c_fits] in Q5. rewrite Q5. cbn [bind].
    destruct c'; reflexivity.
Qed.

(** ** defdict entries *)
Lemma parse_entry fields : fields <> [] -> Forall comma_free fields ->
  parse_defdict_value pfloat (Some (entry fields)) = parse_fields pfloat (map unblank fields).
Proof.
  intros Hn Hc. unfold parse_defdict_value, entry. rewrite bracket_test, inner_brackets.
  rewrite remove_char_join by reflexivity. rewrite split_join.
  - reflexivity.
  - destruct fields; [congruence|discriminate].
  - intros s Hs. apply in_map_iff in Hs. destruct Hs as (f & <- & Hf). apply remove_char_has.
    rewrite Forall_forall in Hc. apply Hc; exact Hf.
Qed.

(** ** V / SRF entries *)
Lemma int_key_b k : String.eqb k "ncoefs" || String.eqb (drop 1 k) "__ncoefs" = true <->
  int_key k.
Proof.
  rewrite orb_true_iff, !String.eqb_eq. unfold int_key. split.
  - intros [->|H]; [auto|]. destruct k as [|c k]; [discriminate|]. right. exists c. simpl in H. congruence.
  - intros [->|[X ->]]; [auto|]. right. reflexivity.
Qed.
Lemma list_key_b k : String.eqb k "a" || String.eqb (drop 1 k) "__a" = true <-> list_key k.
Proof.
  rewrite orb_true_iff, !String.eqb_eq. unfold list_key. split.
  - intros [->|H]; [auto|]. destruct k as [|c k]; [discriminate|]. right. exists c. simpl in H. congruence.
  - intros [->|[X ->]]; [auto|]. right. reflexivity.
Qed.

Lemma mapM_floats fields qs : Forall2 (fun f q => pfloat f = Some q) fields qs ->
  mapM (fun f => getfloat pfloat (Some f)) fields = Ok (map VNum qs).
Proof.
  induction 1 as [|f q fs qs H F IH]; [reflexivity|]. cbn [mapM map]. unfold getfloat at 1. rewrite H. cbn [bind]. rewrite IH. reflexivity.
Qed.
Lemma mapM_floats_inv fields l : mapM (fun f => getfloat pfloat (Some f)) fields = Ok l ->
  exists qs, l = map VNum qs /\ Forall2 (fun f q => pfloat f = Some q) fields qs.
Proof.
  revert l. induction fields as [|f fs IH]; intros l; cbn [mapM].
  - intros E; inversion E; subst. exists []. split; [reflexivity|constructor].
  - unfold getfloat at 1. destruct (pfloat f) as [q|] eqn:Eq; cbn [bind]; [|discriminate].
    destruct (mapM _ fs) eqn:E; cbn [bind]; [|discriminate]. intros Q; inversion Q; subst.
    destruct (IH a eq_refl) as (qs & -> & F). exists (q :: qs). split; [reflexivity|constructor; assumption].
Qed.

Lemma forall2_map_l {A B C} (f : A -> B) (P : B -> C -> Prop) l m :
  Forall2 P (map f l) m <-> Forall2 (fun a c => P (f a) c) l m.
Proof.
  split.
  - revert m. induction l as [|a l IH]; simpl; intros m H; inversion H; subst; constructor; auto.
  - induction 1; simpl; constructor; auto.
Qed.

Lemma not_true_false b : ~ b = true -> b = false.
Proof. destruct b; congruence. Qed.

Lemma converted_iff k s v : converted pfloat pint k s v <-> parse_vsrf_value pfloat pint k s = Ok v.
Proof.
  unfold parse_vsrf_value. split.
  - assert (Hil : forall k, int_key k -> list_key k -> False).
    { intros k0 [->|[X ->]] [H|[Y H]]; inversion H. }
    intros H. inversion H; subst.
    + apply int_key_b in H0. rewrite H0. simpl. rewrite H1. reflexivity.
    + destruct (String.eqb k "ncoefs" || String.eqb (drop 1 k) "__ncoefs") eqn:E.
      { apply int_key_b in E. exfalso; eauto. }
      apply list_key_b in H0. rewrite H0. unfold entry. rewrite bracket_test, inner_brackets.
      rewrite remove_char_join by reflexivity. rewrite split_join.
      * unfold float_list. rewrite (mapM_floats _ qs); [reflexivity|]. apply forall2_map_l. exact H3.
      * destruct fields; [congruence|discriminate].
      * intros s Hs. apply in_map_iff in Hs. destruct Hs as (f & <- & Hf). apply remove_char_has.
        rewrite Forall_forall in H2. apply H2; exact Hf.
    + rewrite <- int_key_b in H0. rewrite <- list_key_b in H1. apply not_true_false in H0. apply not_true_false in H1.
      rewrite H0, H1. simpl. rewrite H2. reflexivity.
    + rewrite <- int_key_b in H0. rewrite <- list_key_b in H1. apply not_true_false in H0. apply not_true_false in H1.
      rewrite H0, H1. simpl. rewrite H2. reflexivity.
    + rewrite <- int_key_b in H0. rewrite <- list_key_b in H1. apply not_true_false in H0. apply not_true_false in H1.
      rewrite H0, H1. reflexivity.
  - destruct (String.eqb k "ncoefs" || String.eqb (drop 1 k) "__ncoefs") eqn:E1.
    { apply int_key_b in E1. destruct s as [s|]; simpl; [|discriminate].
      destruct (pint s) as [z|] eqn:Ez; [|discriminate]. intros Q; inversion Q; subst. constructor; assumption. }
    assert (N1 : ~ int_key k) by (rewrite <- int_key_b; congruence).
    destruct (String.eqb k "a" || String.eqb (drop 1 k) "__a") eqn:E2.
    { apply list_key_b in E2. destruct s as [s|]; [|discriminate].
      destruct (startswith "[" s && endswith "]" s) eqn:B; [|discriminate].
      apply bracket_inv in B. destruct B as [a ->]. rewrite inner_brackets.
      unfold float_list. intros Q. apply bind_ok in Q. destruct Q as (l & Q & El). inversion El; subst.
      rewrite <- (join_split "," a) in Q |- *.
      change ("[" ++ join_char "," (split_char "," a) ++ "]") with (entry (split_char "," a)).
      rewrite remove_char_join in Q by reflexivity. rewrite split_join in Q.
      - apply mapM_floats_inv in Q. destruct Q as (qs & -> & F). apply forall2_map_l in F.
        constructor; [exact E2|apply split_char_nonempty| |exact F].
        apply Forall_forall. intros f Hf. eapply split_char_fields; exact Hf.
      - assert (Hn := split_char_nonempty "," a). destruct (split_char "," a); [congruence|discriminate].
      - intros s Hs. apply in_map_iff in Hs. destruct Hs as (f & <- & Hf). apply remove_char_has.
        eapply split_char_fields; exact Hf. }
    assert (N2 : ~ list_key k) by (rewrite <- list_key_b; congruence).
    destruct s as [s|]; simpl.
    + destruct (pfloat s) eqn:Ef; intros Q; inversion Q; subst; [apply Cv_float|apply Cv_str]; assumption.
    + intros Q; inversion Q; subst. apply Cv_none; assumption.
Qed.

Lemma parse_section_spec f inp : forall acc vals, NoDup (keys inp) ->
  (forall k, In k (keys inp) -> ~ In k (keys acc)) ->
  Forall2 (fun ks kv => fst ks = fst kv /\ f (fst ks) (snd ks) = Ok (snd kv)) inp vals ->
  parse_section f inp acc = Ok (acc ++ vals)%list.
Proof.
  induction inp as [|[k s] r IH]; intros acc vals Hn Hd F; inversion F as [|? kv ? vs [H1 H2] F']; subst.
  - simpl. rewrite app_nil_r. reflexivity.
  - simpl in H1, H2. simpl. rewrite H2. cbn [bind]. inversion Hn; subst.
    rewrite dset_new by (apply Hd; left; reflexivity). rewrite (IH _ vs).
    + rewrite <- app_assoc. simpl. destruct kv; simpl in *; subst; reflexivity.
    + assumption.
    + intros k' Hk'. rewrite keys_app, in_app_iff. simpl. intros [Hi|[Hi|[]]].
      * apply (Hd k'); [right; exact Hk'|exact Hi].
      * subst. tauto.
    + exact F'.
Qed.
End O.

(** ** grouping of the components *)
Lemma is_component_of k : is_component k = match component_of k with Some _ => true | None => false end.
Proof.
  assert (P : forall s, startswith "__" s = match s with
     | String u1 (String u2 _) => Ascii.eqb u1 "_" && Ascii.eqb u2 "_" | _ => false end).
  { intros s. destruct (startswith "__" s) eqn:E.
    - apply prefix_iff in E. destruct E as [r ->]. reflexivity.
    - destruct s as [|u1 [|u2 r]]; try reflexivity.
      destruct (Ascii.eqb_spec u1 "_") as [->|]; [|reflexivity].
      destruct (Ascii.eqb_spec u2 "_") as [->|]; [|reflexivity].
      exfalso. assert (Q := startswith_app "__" r). cbn [append] in Q. congruence. }
  destruct k as [|c k]; [reflexivity|]. unfold is_component. rewrite P.
  destruct k as [|u1 [|u2 r]]; simpl; try (destruct (is_upper c); reflexivity).
  destruct (is_upper c && (Ascii.eqb u1 "_" && Ascii.eqb u2 "_")); reflexivity.
Qed.

Lemma component_of_inv k c rest : component_of k = Some (c, rest) -> k = String c ("__" ++ rest) /\ is_upper c = true.
Proof.
  destruct k as [|c0 [|u1 [|u2 r]]]; simpl; try discriminate.
  destruct (is_upper c0 && (Ascii.eqb u1 "_" && Ascii.eqb u2 "_")) eqn:E; [|discriminate].
  intros Q; inversion Q; subst. rewrite !andb_true_iff, !Ascii.eqb_eq in E.
  destruct E as (H1 & -> & ->). auto.
Qed.

(** the effect of one entry on the choices *)
Definition chstep (ch : choices) (kv : string * val) : choices :=
  match component_of (fst kv) with
  | None => ch
  | Some (c, rest) =>
      let letter := String c "" in
      let x := choice letter ch in
      if endswith "__frac" (fst kv) then dset string_dec letter (snd kv, snd x) ch
      else dset string_dec letter (fst x, dset string_dec rest (snd kv) (snd x)) ch
  end.

Lemma group_components_split l : forall pd ch,
  group_components l pd ch =
  (fold_left (fun d kv => if is_component (fst kv) then ddel string_dec (fst kv) d else d) l pd,
   fold_left chstep l ch).
Proof.
  induction l as [|[k v] r IH]; intros pd ch; [reflexivity|]. cbn [group_components fold_left fst snd].
  unfold chstep at 2. cbn [fst snd]. rewrite is_component_of.
  destruct (component_of k) as [[c rest]|] eqn:E; [|apply IH].
  apply component_of_inv in E. destruct E as [-> Hu]. cbn [String.substring append drop].
  destruct (endswith "__frac" (String c (String "_" (String "_" rest)))); apply IH.
Qed.

Lemma ddel_filter k (d : dict string val) : NoDup (keys d) ->
  ddel string_dec k d = filter (fun kv => negb (String.eqb (fst kv) k)) d.
Proof.
  induction d as [|[a b] d IH]; [reflexivity|]. cbn [ddel filter fst]. intros H. inversion H; subst.
  destruct (string_dec k a) as [->|Hn].
  - rewrite String.eqb_refl. cbn [negb]. clear - H2. induction d as [|[a' b'] d IH]; [reflexivity|].
    cbn [filter fst]. destruct (String.eqb_spec a' a) as [->|]; [exfalso; apply H2; left; reflexivity|].
    cbn [negb]. rewrite <- IH; [reflexivity|]. intros Hi; apply H2; right; exact Hi.
  - destruct (String.eqb_spec a k) as [->|]; [congruence|]. cbn [negb]. rewrite IH by assumption. reflexivity.
Qed.

Lemma filter_nodup_keys {A} (p : string * A -> bool) d : NoDup (keys d) -> NoDup (keys (filter p d)).
Proof.
  induction d as [|x d IH]; [auto|]. cbn [keys map]. intros H. inversion H; subst. cbn [filter].
  destruct (p x); [|apply IH; assumption]. cbn [keys map]. constructor; [|apply IH; assumption].
  intros Hi. apply H2. unfold keys in *. apply in_map_iff in Hi. destruct Hi as (y & E & Hy).
  apply filter_In in Hy. apply in_map_iff. exists y. tauto.
Qed.

Lemma filter_filter {A} (p q : A -> bool) l : filter p (filter q l) = filter (fun x => q x && p x) l.
Proof.
  induction l as [|a l IH]; [reflexivity|]. cbn [filter]. destruct (q a); cbn [filter andb]; [|exact IH].
  destruct (p a); rewrite IH; reflexivity.
Qed.

Lemma remove_components l : forall pd : dict string val, NoDup (keys pd) ->
  fold_left (fun d kv => if is_component (fst kv) then ddel string_dec (fst kv) d else d) l pd
  = filter (fun kv => negb (inb string_dec (fst kv) (map fst (filter (fun kv : string * val => is_component (fst kv)) l)))) pd.
Proof.
  induction l as [|[k v] r IH]; intros pd H; cbn [fold_left filter map fst].
  - induction pd as [|x pd IH]; [reflexivity|]. cbn [filter inb]. inversion H; subst. 
    cbn. f_equal. apply IH; assumption.
  - destruct (is_component k); [|apply IH; exact H]. cbn [map fst].
    rewrite IH by (apply ddel_nodup; exact H). rewrite ddel_filter by exact H. rewrite filter_filter.
    apply filter_ext. intros [a b]. cbn [fst]. unfold inb.
    destruct (String.eqb_spec a k) as [->|Hn]; cbn [negb andb].
    + destruct (in_dec string_dec k (k :: _)) as [|Hx]; [reflexivity|]. exfalso; apply Hx; left; reflexivity.
    + destruct (in_dec string_dec a (map fst _)) as [Hi|Hi];
      destruct (in_dec string_dec a (k :: _)) as [Hj|Hj]; try reflexivity.
      * exfalso; apply Hj; right; exact Hi.
      * destruct Hj as [Hj|Hj]; [congruence|tauto].
Qed.

Lemma remove_components_self (l : dict string val) : NoDup (keys l) ->
  fold_left (fun d kv => if is_component (fst kv) then ddel string_dec (fst kv) d else d) l l
  = filter (fun kv => match component_of (fst kv) with Some _ => false | None => true end) l.
Proof.
  intros H. rewrite remove_components by exact H. apply filter_ext_in. intros [k v] Hi. cbn [fst].
  unfold inb. assert (E := is_component_of k). destruct (component_of k).
  - destruct (in_dec _ _ _) as [|Hx]; [reflexivity|]. exfalso; apply Hx.
    apply in_map_iff. exists (k, v). split; [reflexivity|]. apply filter_In. split; [exact Hi|exact E].
  - destruct (in_dec _ _ _) as [Hx|]; [|reflexivity]. exfalso.
    apply in_map_iff in Hx. destruct Hx as ([k' v'] & Ek & Hx). cbn [fst] in Ek. subst.
    apply filter_In in Hx. cbn [fst] in Hx. rewrite E in Hx. destruct Hx; discriminate.
Qed.

Definition comp_list (l : list (string * val)) : choices :=
  map (fun X => (String X "", (frac_of X l, params_of X l))) (letters l).

Lemma letters_snoc l kv : letters (l ++ [kv]) =
  match component_of (fst kv) with
  | None => letters l
  | Some (c, _) => if in_dec ascii_dec c (letters l) then letters l else (letters l ++ [c])%list
  end.
Proof.
  unfold letters. rewrite flat_map_app. cbn [flat_map]. rewrite app_nil_r.
  destruct (component_of (fst kv)) as [[c rest]|]; [|rewrite app_nil_r; reflexivity].
  rewrite rev_app_distr. cbn [rev app]. set (L := flat_map _ l).
  cbn [nodup]. destruct (in_dec ascii_dec c (rev L)) as [H1|H1];
  destruct (in_dec ascii_dec c (rev (nodup ascii_dec (rev L)))) as [H2|H2]; try reflexivity; exfalso.
  - apply H2. apply in_rev. rewrite rev_involutive. apply nodup_In. exact H1.
  - apply H1. apply in_rev in H2. apply nodup_In in H2. exact H2.
Qed.

Lemma letters_nodup l : NoDup (letters l).
Proof. unfold letters. apply NoDup_rev. apply NoDup_nodup. Qed.

Lemma letters_in c l : In c (letters l) <-> exists k v rest, In (k, v) l /\ component_of k = Some (c, rest).
Proof.
  unfold letters. rewrite <- in_rev, nodup_In, <- in_rev, in_flat_map. split.
  - intros ([k v] & Hi & Hc). cbn [fst] in Hc. destruct (component_of k) as [[c' rest]|] eqn:E; [|destruct Hc].
    destruct Hc as [->|[]]. eauto.
  - intros (k & v & rest & Hi & E). exists (k, v). split; [exact Hi|]. cbn [fst]. rewrite E. left; reflexivity.
Qed.

Lemma params_snoc X l kv : params_of X (l ++ [kv]) = (params_of X l ++ params_of X [kv])%list.
Proof. unfold params_of. rewrite flat_map_app. reflexivity. Qed.

Lemma params_single X k v : params_of X [(k, v)] =
  match component_of k with
  | Some (c, rest) => if ascii_dec c X then (if endswith "__frac" k then [] else [(rest, v)]) else []
  | None => [] end.
Proof. unfold params_of. cbn [flat_map fst snd]. apply app_nil_r. Qed.

Lemma last_snoc {A} (l : list A) x d : last (l ++ [x]) d = x.
Proof. induction l as [|a l IH]; [reflexivity|]. cbn [app last]. destruct (l ++ [x])%list eqn:E; [destruct l; discriminate|exact IH]. Qed.

Lemma frac_snoc X l k v : frac_of X (l ++ [(k, v)]) =
  match component_of k with
  | Some (c, _) => if ascii_dec c X then (if endswith "__frac" k then v else frac_of X l) else frac_of X l
  | None => frac_of X l
  end.
Proof.
  unfold frac_of. rewrite flat_map_app. cbn [flat_map fst snd]. rewrite app_nil_r.
  destruct (component_of k) as [[c rest]|]; [|rewrite app_nil_r; reflexivity].
  destruct (ascii_dec c X); [|rewrite app_nil_r; reflexivity].
  destruct (endswith "__frac" k); [apply last_snoc|rewrite app_nil_r; reflexivity].
Qed.

Lemma params_keys X l rest v : In (rest, v) (params_of X l) ->
  exists k, In (k, v) l /\ component_of k = Some (X, rest).
Proof.
  unfold params_of. rewrite in_flat_map. intros ([k w] & Hi & H). cbn [fst snd] in H.
  destruct (component_of k) as [[c r]|] eqn:E; [|destruct H]. destruct (ascii_dec c X) as [->|]; [|destruct H].
  destruct (endswith "__frac" k); [destruct H|]. destruct H as [H|[]]. inversion H; subst. eauto.
Qed.

Lemma dget_map_letters (f : ascii -> val * dict string val) L X :
  dget string_dec (String X "") (map (fun X => (String X "", f X)) L) =
  if in_dec ascii_dec X L then Some (f X) else None.
Proof.
  induction L as [|a L IH]; [reflexivity|]. cbn [map dget].
  destruct (string_dec (String X "") (String a "")) as [E|E].
  - inversion E; subst. destruct (in_dec ascii_dec a (a :: L)) as [|H]; [reflexivity|].
    exfalso; apply H; left; reflexivity.
  - rewrite IH. destruct (in_dec ascii_dec X L) as [H1|H1]; destruct (in_dec ascii_dec X (a :: L)) as [H2|H2]; try reflexivity.
    + exfalso; apply H2; right; exact H1.
    + exfalso. destruct H2 as [->|H2]; [apply E; reflexivity|tauto].
Qed.

Lemma dset_map_letters (f g : ascii -> val * dict string val) L X : NoDup L -> In X L ->
  (forall Y, In Y L -> Y <> X -> f Y = g Y) ->
  dset string_dec (String X "") (g X) (map (fun X => (String X "", f X)) L) =
  map (fun X => (String X "", g X)) L.
Proof.
  induction L as [|a L IH]; intros Hn Hi Hf; [destruct Hi|]. cbn [map dset]. inversion Hn; subst.
  destruct (string_dec (String X "") (String a "")) as [E|E].
  - inversion E; subst. f_equal. apply map_ext_in. intros Y HY. rewrite Hf; [reflexivity|right; exact HY|].
    intros ->; tauto.
  - destruct Hi as [->|Hi]; [congruence|]. rewrite IH; [|assumption|exact Hi|].
    + rewrite (Hf a); [reflexivity|left; reflexivity|]. intros ->. apply E; reflexivity.
    + intros Y HY. apply Hf. right; exact HY.
Qed.

Lemma dset_map_letters_new (f g : ascii -> val * dict string val) L X : ~ In X L ->
  (forall Y, In Y L -> f Y = g Y) ->
  dset string_dec (String X "") (g X) (map (fun X => (String X "", f X)) L) =
  map (fun X => (String X "", g X)) (L ++ [X]).
Proof.
  intros Hi Hf. rewrite dset_new.
  - rewrite map_app. cbn [map]. f_equal. apply map_ext_in. intros Y HY. rewrite Hf by exact HY. reflexivity.
  - unfold keys. rewrite map_map. cbn [fst]. intros H. apply in_map_iff in H. destruct H as (Y & E & HY).
    inversion E; subst. tauto.
Qed.

Lemma chfold_spec l : NoDup (keys l) -> fold_left chstep l [] = comp_list l.
Proof.
  induction l as [|[k v] l IH] using rev_ind; intros Hn; [reflexivity|].
  rewrite fold_left_app. cbn [fold_left].
  assert (Hn' : NoDup (keys l)) by (rewrite keys_app in Hn; cbn in Hn; apply NoDup_remove_1 in Hn; rewrite app_nil_r in Hn; exact Hn).
  assert (Hk : ~ In k (keys l)).
  { rewrite keys_app in Hn. cbn in Hn. apply NoDup_remove_2 in Hn. rewrite app_nil_r in Hn. exact Hn. }
  rewrite IH by exact Hn'. unfold chstep. cbn [fst snd].
  destruct (component_of k) as [[c rest]|] eqn:E.
  2:{ unfold comp_list. rewrite letters_snoc. cbn [fst]. rewrite E. apply map_ext. intros X.
      rewrite frac_snoc, E, params_snoc, params_single, E, app_nil_r. reflexivity. }
  set (g := fun X => (frac_of X (l ++ [(k, v)]), params_of X (l ++ [(k, v)]))).
  assert (Hch : choice (String c "") (comp_list l) = (frac_of c l, params_of c l)).
  { unfold choice, comp_list. rewrite (dget_map_letters (fun X => (frac_of X l, params_of X l))).
    destruct (in_dec ascii_dec c (letters l)) as [|Hx]; [reflexivity|].
    assert (P : params_of c l = []).
    { destruct (params_of c l) as [|[r w] t] eqn:P; [reflexivity|]. exfalso. apply Hx.
      destruct (params_keys c l r w) as (k' & Hi & Ek); [rewrite P; left; reflexivity|].
      apply letters_in. eauto. }
    rewrite P. f_equal. unfold frac_of.
    replace (flat_map _ l) with (@nil val); [reflexivity|]. symmetry.
    match goal with |- ?x = [] => destruct x as [|w t] eqn:Q; [reflexivity|] end. exfalso. apply Hx.
    assert (Hw : In w (w :: t)) by (left; reflexivity). rewrite <- Q in Hw.
    apply in_flat_map in Hw. destruct Hw as ([k' v'] & Hi & Hw). cbn [fst snd] in Hw.
    destruct (component_of k') as [[c' r']|] eqn:Ek; [|destruct Hw].
    destruct (ascii_dec c' c) as [->|]; [|destruct Hw]. apply letters_in. eauto. }
  assert (Hg : (if endswith "__frac" k
                then dset string_dec (String c "") (v, snd (choice (String c "") (comp_list l))) (comp_list l)
                else dset string_dec (String c "")
                  (fst (choice (String c "") (comp_list l)), dset string_dec rest v (snd (choice (String c "") (comp_list l)))) (comp_list l))
               = dset string_dec (String c "") (g c) (comp_list l)).
  { rewrite Hch. cbn [fst snd]. unfold g. rewrite frac_snoc, params_snoc, params_single, E.
    destruct (ascii_dec c c) as [_|]; [|congruence].
    destruct (endswith "__frac" k).
    - rewrite app_nil_r. reflexivity.
    - rewrite (dset_new rest v); [reflexivity|]. intros Hi. apply in_map_iff in Hi. destruct Hi as ([r w] & Er & Hi).
      cbn [fst] in Er; subst. apply params_keys in Hi. destruct Hi as (k' & Hi & Ek').
      apply component_of_inv in Ek'. apply component_of_inv in E. destruct Ek' as [-> _]. destruct E as [-> _].
      apply Hk. apply in_map_iff. exists (String c ("__" ++ rest), w). auto. }
  cbv zeta. transitivity (dset string_dec (String c "") (g c) (comp_list l)); [exact Hg|]. unfold comp_list at 2. rewrite letters_snoc. cbn [fst]. rewrite E.
  assert (Hother : forall Y, Y <> c -> (frac_of Y l, params_of Y l) = g Y).
  { intros Y HY. unfold g. rewrite frac_snoc, params_snoc, params_single, E.
    destruct (ascii_dec c Y) as [->|]; [congruence|]. rewrite app_nil_r. reflexivity. }
  destruct (in_dec ascii_dec c (letters l)) as [Hi|Hi].
  - apply (dset_map_letters (fun X => (frac_of X l, params_of X l)) g); [apply letters_nodup|exact Hi|].
    intros Y _ HY. apply Hother; exact HY.
  - apply (dset_map_letters_new (fun X => (frac_of X l, params_of X l)) g); [exact Hi|].
    intros Y HY. apply Hother. intros ->; tauto.
Qed.

(** ** config names *)
Lemma names_loop ini l names : config_names_loop ini l = Ok names ->
  forall n, In n names <-> exists i t, In i l /\ split_char " " i = "#config" :: t /\
    (t = [n] \/ exists s, t = [n; s] /\ dmem string_dec s ini = true).
Proof.
  revert names. induction l as [|i r IH]; intros names; cbn [config_names_loop].
  - intros E; inversion E; subst. intros n. split; [intros []|intros (i & t & [] & _)].
  - assert (Skip : (forall t, split_char " " i <> "#config" :: t) ->
      config_names_loop ini r = Ok names ->
      forall n, In n names <-> exists i0 t, In i0 (i :: r) /\ split_char " " i0 = "#config" :: t /\
       (t = [n] \/ exists s, t = [n; s] /\ dmem string_dec s ini = true)).
    { intros Hs E n. rewrite (IH _ E). split.
      - intros (i0 & t & Hi & Q). exists i0, t. split; [right; exact Hi|exact Q].
      - intros (i0 & t & [<-|Hi] & Q); [exfalso; eapply Hs; apply Q|]. exists i0, t. auto. }
    assert (Hcons : forall n0 t0, split_char " " i = "#config" :: t0 ->
       (t0 = [n0] \/ exists s, t0 = [n0; s] /\ dmem string_dec s ini = true) ->
       (do ns <- config_names_loop ini r; Ok (n0 :: ns)) = Ok names ->
       forall n, In n names <-> exists i0 t, In i0 (i :: r) /\ split_char " " i0 = "#config" :: t /\
       (t = [n] \/ exists s, t = [n; s] /\ dmem string_dec s ini = true)).
    { intros n0 t0 Es Ht E n. apply bind_ok in E. destruct E as (ns & E & Q). inversion Q; subst. split.
      - intros [<-|Hi]; [exists i, t0; split; [left; reflexivity|auto]|].
        apply (IH _ E) in Hi. destruct Hi as (i0 & t & Hi & Q2). exists i0, t. split; [right; exact Hi|exact Q2].
      - intros (i0 & t & [<-|Hi] & Q1 & Q2).
        + left. assert (t = t0) by congruence. subst. destruct Ht as [->|(s & -> & _)];
          destruct Q2 as [Q2|(s' & Q2 & _)]; inversion Q2; reflexivity.
        + right. apply (IH _ E). exists i0, t. auto. }
    destruct (startswith "#config" i) eqn:S.
    + destruct (split_char " " i) as [|h t] eqn:Es; [exfalso; eapply split_char_nonempty; exact Es|].
      destruct (String.eqb_spec h "#config") as [->|Hh].
      * destruct t as [|n0 [|s [|? ?]]]; try discriminate.
        -- intros E. apply (Hcons n0 [n0] eq_refl); auto.
        -- destruct (dmem string_dec s ini) eqn:Em; [|discriminate].
           intros E. apply (Hcons n0 [n0; s] eq_refl); [right; eauto|exact E].
      * intros E. apply Skip; [|exact E]. intros t' Q. congruence.
    + intros E. apply Skip; [|exact E]. intros t Q. assert (J := join_split " " i). rewrite Q in J.
      assert (Hp : startswith "#config" i = true); [|congruence].
      rewrite <- J. destruct t; [apply (startswith_app "#config" "")|apply startswith_app].
Qed.

Definition malformed (ini : inifile) (i : string) : Prop :=
  exists t, split_char " " i = "#config" :: t /\
    match t with
    | [n] => False
    | [n; s] => dmem string_dec s ini = false
    | _ => True
    end.

Lemma names_loop_err ini l :
  ((exists e, config_names_loop ini l = Err e) <-> exists i, In i l /\ malformed ini i) /\
  (forall e, config_names_loop ini l = Err e -> e = AssertionError).
Proof.
  induction l as [|i r [IH1 IH2]]; cbn [config_names_loop].
  - split; [|discriminate]. split; [intros [e E]; discriminate|intros (i & [] & _)].
  - assert (Skip : ~ malformed ini i ->
      ((exists e, config_names_loop ini r = Err e) <-> exists i0, In i0 (i :: r) /\ malformed ini i0) /\
      (forall e, config_names_loop ini r = Err e -> e = AssertionError)).
    { intros Hm. split; [|exact IH2]. rewrite IH1. split.
      - intros (i0 & Hi & M). exists i0. split; [right; exact Hi|exact M].
      - intros (i0 & [<-|Hi] & M); [tauto|]. exists i0. auto. }
    assert (Keep : forall n0, ~ malformed ini i ->
      ((exists e, (do ns <- config_names_loop ini r; Ok (n0 :: ns)) = Err e) <-> exists i0, In i0 (i :: r) /\ malformed ini i0) /\
      (forall e, (do ns <- config_names_loop ini r; Ok (n0 :: ns)) = Err e -> e = AssertionError)).
    { intros n0 Hm. destruct (Skip Hm) as [S1 S2]. destruct (config_names_loop ini r) eqn:E; cbn [bind].
      - split; [|discriminate]. rewrite <- S1. split; intros [e Q]; discriminate.
      - split; [exact S1|exact S2]. }
    assert (Bad : malformed ini i ->
      ((exists e, @Err (list string) AssertionError = Err e) <-> exists i0, In i0 (i :: r) /\ malformed ini i0) /\
      (forall e, @Err (list string) AssertionError = Err e -> e = AssertionError)).
    { intros M. split; [|congruence]. split; [|eauto]. intros _. exists i. split; [left; reflexivity|exact M]. }
    destruct (startswith "#config" i) eqn:S.
    + destruct (split_char " " i) as [|h t] eqn:Es; [exfalso; eapply split_char_nonempty; exact Es|].
      destruct (String.eqb_spec h "#config") as [->|Hh].
      * destruct t as [|n0 [|s [|? ?]]].
        -- apply Bad. exists []. auto.
        -- apply Keep. intros (t & Q & M). rewrite Es in Q. inversion Q; subst. exact M.
        -- destruct (dmem string_dec s ini) eqn:Em.
           ++ apply Keep. intros (t & Q & M). rewrite Es in Q. inversion Q; subst. congruence.
           ++ apply Bad. exists [n0; s]. auto.
        -- apply Bad. eexists. split; [exact Es|]. exact I.
      * apply Skip. intros (t' & Q & M). congruence.
    + apply Skip. intros (t & Q & M). assert (J := join_split " " i). rewrite Q in J.
      assert (Hp : startswith "#config" i = true); [|congruence].
      rewrite <- J. destruct t; [apply (startswith_app "#config" "")|apply startswith_app].
Qed.

Lemma dmem_keys {A} (k : string) (d : dict string A) : dmem string_dec k d = true <-> In k (keys d).
Proof.
  unfold dmem. rewrite (dget_in_keys string_dec). destruct (dget string_dec k d); split; congruence.
Qed.

Lemma all_space_b s : all_space s -> allsp s = true.
Proof. induction s as [|c s IH]; simpl; [reflexivity|]. intros [-> H]. auto. Qed.
Lemma trims_strip f t : trims f t -> strip f = t.
Proof.
  intros [[H1 H2] (p & q & Hp & Hq & ->)]. apply strip_pad; auto using all_space_b.
Qed.

Lemma parse_section_inv f inp : forall acc d, NoDup (keys inp) ->
  (forall k, In k (keys inp) -> ~ In k (keys acc)) ->
  parse_section f inp acc = Ok d ->
  exists vals, d = (acc ++ vals)%list /\
    Forall2 (fun ks kv => fst ks = fst kv /\ f (fst ks) (snd ks) = Ok (snd kv)) inp vals.
Proof.
  induction inp as [|[k s] r IH]; simpl; intros acc d Hn Hd E.
  - inversion E; subst. exists []. rewrite app_nil_r. split; [reflexivity|constructor].
  - inversion Hn; subst. destruct (f k s) as [v|e] eqn:Ev; simpl in E; [|discriminate].
    rewrite dset_new in E by (apply Hd; left; reflexivity).
    edestruct IH as (vals & -> & F); [exact H2| |exact E|].
    + intros k' Hk'. rewrite keys_app, in_app_iff. intros [Hi|[<-|[]]]; [apply (Hd k'); [right|]; assumption|].
      apply H1. exact Hk'.
    + exists ((k, v) :: vals). rewrite <- app_assoc. split; [reflexivity|]. constructor; [split; [reflexivity|exact Ev]|exact F].
Qed.

Lemma mapM_forall2 {A B} (f : A -> res B) l m : Forall2 (fun a b => f a = Ok b) l m -> mapM f l = Ok m.
Proof. induction 1 as [|a b l m H _ IH]; [reflexivity|]. cbn [mapM]. rewrite H. cbn [bind]. rewrite IH. reflexivity. Qed.

Lemma specs_loop_acc pfloat pint D sp rs inp : forall acc r,
  specs_loop pfloat pint D sp rs inp acc = Ok r <->
  exists kvs, Forall2 (fun e kv => parse_spec pfloat pint D sp rs (fst e) (snd e) = Ok kv) inp kvs /\
              r = dupdate string_dec acc kvs.
Proof.
  induction inp as [|[k s] inp IH]; intros acc r; cbn [specs_loop].
  - split.
    + intros E; inversion E; subst. exists []. split; [constructor|reflexivity].
    + intros (kvs & F & ->). inversion F; reflexivity.
  - split.
    + intros E. apply bind_ok in E. destruct E as (kv & E1 & E). apply IH in E. destruct E as (kvs & F & ->).
      exists (kv :: kvs). split; [constructor; assumption|]. destruct kv. rewrite dupdate_cons. reflexivity.
    + intros (kvs & F & ->). inversion F; subst. cbn [fst snd] in *. rewrite H1. cbn [bind].
      apply IH. exists l'. split; [assumption|]. destruct y. rewrite dupdate_cons. reflexivity.
Qed.

Lemma config_section_inj n s s' : config_section n s = config_section n s' -> s = s'.
Proof.
  unfold config_section. intros H. assert (X : forall a b c, a ++ b = a ++ c -> b = c).
  { clear. induction a as [|x a IH]; simpl; intros b c E; [exact E|]. inversion E. auto. }
  apply X in H. apply X in H. apply X in H. exact H.
Qed.
