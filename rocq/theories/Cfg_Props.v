(** Properties C39-C43, C82-C85: the configuration files (rt1/rtparse.py).
    Only property theorems, examples and assumption listings. *)
From Coq Require Import List Arith ZArith QArith Bool String Ascii Lia.
From Verif Require Import Base Base_Proofs Str_Model Str_Proofs Con_Model Con_Spec Con_Proofs Con_Props
  Cfg_Model Cfg_Spec Cfg_Proofs.
Import ListNotations.
Open Scope string_scope.

(** conversions for a few literals and a configuration file, used by the examples *)
Definition ex_float (s : string) : option Q :=
  dget string_dec s [("0.5", 1#2); ("0", 0%Q); ("1", 1%Q); ("0.3", 3#10); ("2", 2%Q)].
Definition ex_int (s : string) : option Z := dget string_dec s [("2", 2%Z); ("10", 10%Z)].
Definition ex_ini : inifile :=
  [("PROCESS_SPECS", [("path__save_path", Some "/tmp"); ("dumpfolder", Some "out"); ("int__n", Some "10")]);
   ("CONFIGFILES", [("module__processing_cfg", Some "a.py")]);
   ("fits_kwargs", [("sig0", Some "True"); ("dB", Some "no"); ("verbose", Some "2")]);
   ("least_squares_kwargs", [("ftol", Some "0.5"); ("x_scale", Some "None")]);
   ("defdict", [("omega", Some "[True, 0.5, None, 0, 1]"); ("tau", Some "[False, 0.3]")]);
   ("RT1_V", [("V_name", Some "LinCombV"); ("A__frac", Some "0.3"); ("tau", Some "tau");
              ("B__ncoefs", Some "10"); ("A__V_name", Some "Isotropic")]);
   ("RT1_SRF", [("SRF_name", Some "HG"); ("t", Some "0.5"); ("ncoefs", Some "2"); ("a", Some "[1, 0 ,1]")]);
   ("#config wet defdict", [("tau", Some "[True,auxiliary , 10D, 0, 2, True]"); ("N", Some "[False, 1]")]);
   ("#config wet RT1_V", [("A__frac", Some "0.5")]);
   ("#config dry", [])].

(** ** C39 overrides *)
Theorem C39_overrides : forall pfloat pint ini name c',
  get_config pfloat pint ini (Some name) = Ok c' ->
  exists c, get_config pfloat pint ini None = Ok c /\
  forall sec A, In (sec, A) parts ->
    match dget string_dec (config_section name sec) ini with
    | None => A c' = A c
    | Some o =>
        (* the override section, read in place of the section it overrides *)
        exists co, get_config pfloat pint (dset string_dec sec o ini) None = Ok co /\
        (forall k, dget string_dec k (A c') =
                   match dget string_dec k (A co) with Some v => Some v | None => dget string_dec k (A c) end) /\
        (exists new, keys (A c') = (keys (A c) ++ new)%list)
    end.
Proof.
  intros pfloat pint ini name c' E. apply get_config_some_ok in E. destruct E as (c & Ec & Hu).
  exists c. split; [exact Ec|]. intros sec A Hi. assert (U := Hu sec A Hi).
  unfold upd, update_from in U. change (override_name name sec) with (config_section name sec) in U.
  assert (Hc := proj1 (get_config_none_ok pfloat pint ini c) Ec).
  destruct (dget string_dec (config_section name sec) ini) as [o|] eqn:Eo.
  - assert (M : dmem string_dec (config_section name sec) ini = true) by (unfold dmem; rewrite Eo; reflexivity).
    rewrite M in U. apply bind_ok in U. destruct U as (p & Ep & U).
    (* the part read from the override *)
    set (ini' := dset string_dec sec o ini).
    assert (Hread : forall s, parser pfloat pint ini' s s = if String.eqb s sec then Ok p else parser pfloat pint ini s s).
    { intros s. destruct (String.eqb_spec s sec) as [->|Hn].
      - rewrite <- Ep. apply parser_local. unfold ini'. rewrite dget_dset_same, Eo. reflexivity.
      - apply parser_local. unfold ini'. rewrite dget_dset_other by exact Hn. reflexivity. }
    assert (Hco : exists co, (forall s B, In (s, B) parts -> B co = if String.eqb s sec then p else B c)).
    { exists (mkconfig (if String.eqb "least_squares_kwargs" sec then p else c_lsq c)
                       (if String.eqb "defdict" sec then p else c_defdict c)
                       (if String.eqb "RT1_V" sec then p else c_V c)
                       (if String.eqb "RT1_SRF" sec then p else c_SRF c)
                       (if String.eqb "fits_kwargs" sec then p else c_fits c)).
      intros s B H1. simpl in H1.
      repeat (destruct H1 as [H1|H1]; [inversion H1; subst; reflexivity|]). destruct H1. }
    destruct Hco as (co & Hco). exists co.
    assert (HA : A co = p) by (rewrite (Hco sec A Hi), String.eqb_refl; reflexivity).
    split; [|split].
    + apply get_config_none_ok. intros s B H1. 
      rewrite Hread, (Hco s B H1). destruct (String.eqb s sec); [reflexivity|]. apply Hc; exact H1.
    + intros k. rewrite HA. inversion U as [U']. apply dget_dupdate.
      eapply parser_nodup; exact Ep.
    + inversion U as [U']. clear. generalize (A c). induction p as [|[k v] p IH]; intros d.
      * exists []. rewrite app_nil_r. reflexivity.
      * rewrite dupdate_cons. destruct (IH (dset string_dec k v d)) as [new Hn]. rewrite Hn, keys_dset.
        destruct (in_dec string_dec k (keys d)); [exists new; reflexivity|].
        exists (k :: new). rewrite <- app_assoc. reflexivity.
  - assert (M : dmem string_dec (config_section name sec) ini = false) by (unfold dmem; rewrite Eo; reflexivity).
    rewrite M in U. congruence.
Qed.
Print Assumptions C39_overrides.

(** nothing else in the file matters: other configurations and other sections are irrelevant *)
Theorem C39_locality : forall pfloat pint ini ini' name,
  (forall sec A, In (sec, A) parts ->
     dget string_dec sec ini = dget string_dec sec ini' /\
     dget string_dec (config_section name sec) ini = dget string_dec (config_section name sec) ini') ->
  get_config pfloat pint ini (Some name) = get_config pfloat pint ini' (Some name) /\
  get_config pfloat pint ini None = get_config pfloat pint ini' None.
Proof.
  intros pfloat pint ini ini' name H.
  assert (P : forall sec A, In (sec, A) parts -> parser pfloat pint ini sec sec = parser pfloat pint ini' sec sec).
  { intros sec A Hi. apply parser_local. apply (H sec A Hi). }
  assert (U : forall sec A d, In (sec, A) parts -> upd pfloat pint ini name sec d = upd pfloat pint ini' name sec d).
  { intros sec A d Hi. unfold upd, update_from, dmem. change (override_name name sec) with (config_section name sec).
    rewrite (parser_local pfloat pint ini ini' sec _ _ (proj2 (H sec A Hi))). rewrite (proj2 (H sec A Hi)). reflexivity. }
  rewrite !get_config_some, !get_config_none. unfold parts in P, U.
  assert (R : forall sec, In sec ["least_squares_kwargs"; "fits_kwargs"; "defdict"; "RT1_V"; "RT1_SRF"] ->
     parser pfloat pint ini sec sec = parser pfloat pint ini' sec sec /\
     forall d, upd pfloat pint ini name sec d = upd pfloat pint ini' name sec d).
  { intros sec Hs. simpl in Hs.
    repeat (destruct Hs as [<-|Hs];
      [split; [eapply P|intros d; eapply U]; simpl; eauto 10|]). destruct Hs. }
  assert (R1 := R "least_squares_kwargs" ltac:(simpl; tauto)). assert (R2 := R "fits_kwargs" ltac:(simpl; tauto)).
  assert (R3 := R "defdict" ltac:(simpl; tauto)). assert (R4 := R "RT1_V" ltac:(simpl; tauto)).
  assert (R5 := R "RT1_SRF" ltac:(simpl; tauto)).
  rewrite (proj1 R1), (proj1 R2), (proj1 R3), (proj1 R4), (proj1 R5). split; [|reflexivity].
  destruct (parser pfloat pint ini' "least_squares_kwargs" "least_squares_kwargs"); [|reflexivity]; cbn [bind].
  destruct (parser pfloat pint ini' "fits_kwargs" "fits_kwargs"); [|reflexivity]; cbn [bind].
  destruct (parser pfloat pint ini' "defdict" "defdict"); [|reflexivity]; cbn [bind].
  destruct (parser pfloat pint ini' "RT1_V" "RT1_V"); [|reflexivity]; cbn [bind].
  destruct (parser pfloat pint ini' "RT1_SRF" "RT1_SRF"); [|reflexivity]; cbn [bind].
  rewrite (proj2 R1), (proj2 R2), (proj2 R3), (proj2 R4), (proj2 R5). reflexivity.
Qed.
Print Assumptions C39_locality.

Example C39_example :
  exists c c', get_config ex_float ex_int ex_ini None = Ok c /\ get_config ex_float ex_int ex_ini (Some "wet") = Ok c' /\
  keys (c_defdict c') = ["omega"; "tau"; "N"] /\
  dget string_dec "tau" (c_defdict c') =
    Some (VList [VBool true; VStr "auxiliary"; VStr "10D"; VTup [VList [VNum 0]; VList [VNum 2]]; VBool true]) /\
  dget string_dec "omega" (c_defdict c') = dget string_dec "omega" (c_defdict c) /\
  c_fits c' = [("sig0", VBool true); ("dB", VBool false); ("verbose", VNum 2)].
Proof. eexists; eexists. split; [reflexivity|]. split; [reflexivity|]. repeat split. Qed.

(** ** C40 defdict entries *)
(** five fields, or six and more *)
Theorem C40_entry : forall pfloat f0 f1 f2 f3 f4 rest b v fr mi ma,
  Forall comma_free ([f0; f1; f2; f3; f4] ++ rest) ->
  fitQ_field f0 b -> val_field pfloat f1 v -> freq_field f2 fr ->
  num_field pfloat f3 mi -> num_field pfloat f4 ma ->
  parse_defdict_value pfloat (Some (entry ([f0; f1; f2; f3; f4] ++ rest))) =
  Ok (VList [VBool b; v; fr; VTup [VList [VNum mi]; VList [VNum ma]];
             VBool (match rest with [] => false | f5 :: _ => String.eqb (unblank f5) "True" end)]).
Proof.
  intros pfloat f0 f1 f2 f3 f4 rest b v fr mi ma Hc H0 H1 H2 H3 H4.
  rewrite parse_entry; [|discriminate|exact Hc]. cbn [app map]. unfold parse_fields.
  cbn [index nth_error bind List.length]. unfold fitQ_field in H0. rewrite H0.
  replace (if (if b then "True" else "False") =? "True" then Ok (VBool true)
           else if (if b then "True" else "False") =? "False" then Ok (VBool false) else Err AssertionError)
    with (Ok (VBool b)) by (destruct b; reflexivity).
  cbn [bind].
  replace (if unblank f1 =? "auxiliary" then Ok (VStr (unblank f1)) else getfloat pfloat (Some (unblank f1)))
    with (Ok v).
  2:{ destruct H1 as [[-> ->]|(Hn & q & Hq & ->)]; [reflexivity|].
      apply String.eqb_neq in Hn. rewrite Hn. unfold getfloat. rewrite Hq. reflexivity. }
  cbn [bind]. unfold index. cbn [nth_error bind].
  replace (2 <? _)%nat with true by reflexivity.
  unfold getfloat. unfold num_field in H3, H4. rewrite H3, H4. cbn [bind].
  replace (if unblank f2 =? "None" then VNone else VStr (unblank f2)) with fr.
  2:{ destruct H2 as [[-> ->]|[Hn ->]]; [reflexivity|]. apply String.eqb_neq in Hn. rewrite Hn. reflexivity. }
  destruct rest; reflexivity.
Qed.
Print Assumptions C40_entry.

Theorem C40_short_entry : forall pfloat f0 f1 b v,
  comma_free f0 -> comma_free f1 -> fitQ_field f0 b -> val_field pfloat f1 v ->
  parse_defdict_value pfloat (Some (entry [f0; f1])) = Ok (VList [VBool b; v]).
Proof.
  intros pfloat f0 f1 b v Hc0 Hc1 H0 H1.
  rewrite parse_entry; [|discriminate|repeat constructor; assumption]. cbn [map]. unfold parse_fields.
  cbn [index nth_error bind List.length]. unfold fitQ_field in H0. rewrite H0.
  replace (if (if b then "True" else "False") =? "True" then Ok (VBool true)
           else if (if b then "True" else "False") =? "False" then Ok (VBool false) else Err AssertionError)
    with (Ok (VBool b)) by (destruct b; reflexivity).
  cbn [bind].
  replace (if unblank f1 =? "auxiliary" then Ok (VStr (unblank f1)) else getfloat pfloat (Some (unblank f1)))
    with (Ok v); [reflexivity|].
  destruct H1 as [[-> ->]|(Hn & q & Hq & ->)]; [reflexivity|].
  apply String.eqb_neq in Hn. rewrite Hn. unfold getfloat. rewrite Hq. reflexivity.
Qed.
Print Assumptions C40_short_entry.

Theorem C40_blanks_irrelevant : forall pfloat s s', unblank s = unblank s' ->
  parse_defdict_value pfloat (Some ("[" ++ s ++ "]")) = parse_defdict_value pfloat (Some ("[" ++ s' ++ "]")).
Proof.
  intros pfloat s s' H. unfold parse_defdict_value. rewrite !bracket_test, !inner_brackets.
  change (remove_char " " s) with (unblank s). rewrite H. reflexivity.
Qed.
Print Assumptions C40_blanks_irrelevant.

Theorem C40_rejected : forall pfloat s,
  ((forall a, s <> "[" ++ a ++ "]") -> parse_defdict_value pfloat (Some s) = Err AssertionError) /\
  (forall f0 rest, Forall comma_free (f0 :: rest) -> unblank f0 <> "True" -> unblank f0 <> "False" ->
     parse_defdict_value pfloat (Some (entry (f0 :: rest))) = Err AssertionError) /\
  (forall f0 f1 f2, Forall comma_free [f0; f1; f2] -> (exists b, fitQ_field f0 b) -> (exists v, val_field pfloat f1 v) ->
     parse_defdict_value pfloat (Some (entry [f0; f1; f2])) = Err IndexError).
Proof.
  intros pfloat s. split; [|split].
  - intros H. unfold parse_defdict_value. destruct (startswith "[" s && endswith "]" s) eqn:E; [|reflexivity].
    apply bracket_inv in E. destruct E as [a E]. exfalso. eapply H; exact E.
  - intros f0 rest Hc H1 H2. rewrite parse_entry; [|discriminate|exact Hc]. cbn [map]. unfold parse_fields.
    cbn [index nth_error bind]. apply String.eqb_neq in H1. apply String.eqb_neq in H2. rewrite H1, H2. reflexivity.
  - intros f0 f1 f2 Hc [b H0] [v H1]. rewrite parse_entry; [|discriminate|exact Hc]. cbn [map]. unfold parse_fields.
    cbn [index nth_error bind List.length]. unfold fitQ_field in H0. rewrite H0.
    replace (if (if b then "True" else "False") =? "True" then Ok (VBool true)
           else if (if b then "True" else "False") =? "False" then Ok (VBool false) else Err AssertionError)
      with (Ok (VBool b)) by (destruct b; reflexivity).
    cbn [bind].
    replace (if unblank f1 =? "auxiliary" then Ok (VStr (unblank f1)) else getfloat pfloat (Some (unblank f1)))
      with (Ok v); [reflexivity|].
    destruct H1 as [[-> ->]|(Hn & q & Hq & ->)]; [reflexivity|].
    apply String.eqb_neq in Hn. rewrite Hn. unfold getfloat. rewrite Hq. reflexivity.
Qed.
Print Assumptions C40_rejected.

(** from the file to the properties of the variable *)
Theorem C40_to_definition : forall pfloat x f0 f1 f2 f3 f4 f5 b v fr mi ma,
  Forall comma_free [f0; f1; f2; f3; f4; f5] ->
  fitQ_field f0 b -> val_field pfloat f1 v -> freq_field f2 fr ->
  num_field pfloat f3 mi -> num_field pfloat f4 ma ->
  exists l d, parse_defdict_value pfloat (Some (entry [f0; f1; f2; f3; f4; f5])) = Ok l /\
    from_dict [(x, l)] = Ok d /\
    has_props x (mkprops (VBool b) v fr (VNum mi) (VNum ma) (VBool (String.eqb (unblank f5) "True"))) d.
Proof.
  intros pfloat x f0 f1 f2 f3 f4 f5 b v fr mi ma Hc H0 H1 H2 H3 H4.
  assert (E := C40_entry pfloat f0 f1 f2 f3 f4 [f5] b v fr mi ma Hc H0 H1 H2 H3 H4). cbn [app] in E.
  set (p := mkprops (VBool b) v fr (VNum mi) (VNum ma) (VBool (String.eqb (unblank f5) "True"))).
  destruct (C35_documented_lists [(x, p)]) as (d & Ed & _ & Hp & _); [repeat constructor; simpl; tauto|].
  exists (prop_list p), d. split; [exact E|]. split; [exact Ed|]. apply Hp. left. reflexivity.
Qed.
Print Assumptions C40_to_definition.

Example C40_example :
  parse_defdict_value ex_float (Some "[ True,0.5 , 30D, 0, 1,True]") =
    Ok (VList [VBool true; VNum (1#2); VStr "30D"; VTup [VList [VNum 0]; VList [VNum 1]]; VBool true]) /\
  entry [" True"; "0.5 "; " 30D"; " 0"; " 1"; "True"] = "[ True,0.5 , 30D, 0, 1,True]" /\
  fitQ_field " True" true /\ val_field ex_float "0.5 " (VNum (1#2)) /\ freq_field " 30D" (VStr "30D") /\
  num_field ex_float " 0" 0 /\ num_field ex_float " 1" 1 /\
  parse_defdict_value ex_float (Some "True, 0.5") = Err AssertionError.
Proof.
  split; [reflexivity|]. split; [reflexivity|]. split; [reflexivity|]. split.
  - right. split; [discriminate|]. exists (1#2). split; reflexivity.
  - split; [right; split; [discriminate|reflexivity]|]. repeat split.
Qed.

(** ** C41 linear combinations *)
Theorem C41_lincomb : forall pfloat pint (ini : inifile) sec (inp : section) vals p q,
  (p = "V" /\ q = "SRF") \/ (p = "SRF" /\ q = "V") ->
  dget string_dec sec ini = Some inp -> NoDup (keys inp) ->
  Forall2 (fun ks kv => fst ks = fst kv /\ converted pfloat pint (fst ks) (snd ks) (snd kv)) inp vals ->
  dget string_dec (p ++ "_name") inp = Some (Some ("LinComb" ++ p)) -> pfloat ("LinComb" ++ p) = None ->
  dget string_dec (q ++ "_name") inp = None -> dget string_dec (p ++ "choices") inp = None ->
  parse_V_SRF pfloat pint ini sec =
  Ok (filter (fun kv => match component_of (fst kv) with Some _ => false | None => true end) vals
      ++ [((p ++ "choices")%string, VList (map (fun X => VList [frac_of X vals; VDict (params_of X vals)]) (letters vals)))])%list.
Proof.
  intros pfloat pint ini sec inp vals p q Hpq Hs Hn F Hp Hf Hq Hch.
  assert (Hk : keys vals = keys inp).
  { clear - F. induction F as [|a b l m [H _] _ IH]; [reflexivity|]. cbn. unfold keys in *. congruence. }
  assert (Hg : forall k, dget string_dec k inp = None -> dget string_dec k vals = None).
  { intros k H. apply dget_none. rewrite Hk. apply (dget_none string_dec) in H. exact H. }
  unfold parse_V_SRF, get_section. rewrite Hs. cbn [bind].
  rewrite (parse_section_spec (parse_vsrf_value pfloat pint) inp [] vals Hn).
  2:{ simpl. tauto. }
  2:{ eapply forall2_impl; [|exact F]. intros a b [H1 H2]. split; [exact H1|]. apply converted_iff. exact H2. }
  cbn [app bind].
  assert (Hname : dget string_dec (p ++ "_name") vals = Some (VStr ("LinComb" ++ p))).
  { apply dget_some_in in Hp. clear - F Hp Hf Hn Hk Hpq.
    apply dget_in_nodup; [rewrite Hk; exact Hn|]. clear Hn Hk.
    induction F as [|a b l m [H1 H2] F IH]; [destruct Hp|]. destruct Hp as [->|Hp]; [|right; apply IH; exact Hp].
    left. cbn [fst snd] in *. subst. apply converted_iff in H2. destruct b as [kb vb]. cbn [fst snd] in *. f_equal; [congruence|].
    unfold parse_vsrf_value, getfloat in H2. destruct Hpq as [[-> ->]|[-> ->]];
      cbn in Hf; cbn in H2;
      rewrite Hf in H2; cbn in H2; inversion H2; reflexivity. }
  assert (Hqn : dget string_dec (q ++ "_name") vals = None) by (apply Hg; exact Hq).
  assert (Hcn : dget string_dec (p ++ "choices") vals = None) by (apply Hg; exact Hch).
  assert (G : group_prefix p vals =
     (filter (fun kv => match component_of (fst kv) with Some _ => false | None => true end) vals
      ++ [((p ++ "choices")%string, VList (map (fun X => VList [frac_of X vals; VDict (params_of X vals)]) (letters vals)))])%list).
  { unfold group_prefix. rewrite Hname, String.eqb_refl, group_components_split.
    rewrite chfold_spec by (rewrite Hk; exact Hn). rewrite remove_components_self by (rewrite Hk; exact Hn).
    rewrite dset_new.
    - unfold comp_list. rewrite map_map. reflexivity.
    - intros Hi. apply (dget_none string_dec) in Hcn. apply Hcn. unfold keys in *.
      apply in_map_iff in Hi. destruct Hi as (x & E & Hi). apply filter_In in Hi. apply in_map_iff. exists x. tauto. }
  assert (Gq : forall d, dget string_dec (q ++ "_name") d = None -> group_prefix q d = d).
  { intros d H. unfold group_prefix. rewrite H. reflexivity. }
  assert (Hqr : dget string_dec (q ++ "_name") (group_prefix p vals) = None).
  { rewrite G. apply dget_none. unfold keys. rewrite map_app, in_app_iff. intros [Hi|[Hi|[]]].
    - apply (dget_none string_dec) in Hqn. apply Hqn. apply in_map_iff in Hi. destruct Hi as (x & E & Hi).
      apply filter_In in Hi. apply in_map_iff. exists x. tauto.
    - destruct Hpq as [[-> ->]|[-> ->]]; discriminate. }
  f_equal. destruct Hpq as [[-> ->]|[-> ->]].
  - rewrite (Gq _ Hqr). exact G.
  - rewrite (Gq _ Hqn). exact G.
Qed.
Print Assumptions C41_lincomb.

(** without a linear combination every entry is kept, in order, converted by its key *)
Theorem C41_plain : forall pfloat pint (ini : inifile) sec (inp : section) vals,
  dget string_dec sec ini = Some inp -> NoDup (keys inp) ->
  Forall2 (fun ks kv => fst ks = fst kv /\ converted pfloat pint (fst ks) (snd ks) (snd kv)) inp vals ->
  dget string_dec "V_name" vals <> Some (VStr "LinCombV") ->
  dget string_dec "SRF_name" vals <> Some (VStr "LinCombSRF") ->
  parse_V_SRF pfloat pint ini sec = Ok vals.
Proof.
  intros pfloat pint ini sec inp vals Hs Hn F Hv Hsr.
  unfold parse_V_SRF, get_section. rewrite Hs. cbn [bind].
  rewrite (parse_section_spec (parse_vsrf_value pfloat pint) inp [] vals Hn).
  2:{ simpl. tauto. }
  2:{ eapply forall2_impl; [|exact F]. intros a b [H1 H2]. split; [exact H1|]. apply converted_iff. exact H2. }
  cbn [app bind]. f_equal.
  assert (G : group_prefix "V" vals = vals).
  { unfold group_prefix. cbn [append]. destruct (dget string_dec "V_name" vals) as [[]|]; try reflexivity.
    destruct (String.eqb_spec s "LinCombV") as [->|]; [exfalso; apply Hv; reflexivity|reflexivity]. }
  rewrite G. unfold group_prefix. cbn [append]. destruct (dget string_dec "SRF_name" vals) as [[]|]; try reflexivity.
  destruct (String.eqb_spec s "LinCombSRF") as [->|]; [exfalso; apply Hsr; reflexivity|reflexivity].
Qed.
Print Assumptions C41_plain.

Example C41_example :
  parse_V_SRF ex_float ex_int ex_ini "RT1_V" = Ok
    [("V_name", VStr "LinCombV"); ("tau", VStr "tau");
     ("Vchoices", VList [VList [VNum (3#10); VDict [("V_name", VStr "Isotropic")]];
                         VList [VNum 1; VDict [("ncoefs", VNum 10)]]])] /\
  letters [("V_name", VNone); ("A__frac", VNone); ("tau", VNone); ("B__ncoefs", VNone); ("A__V_name", VNone)]
    = ["A"; "B"]%char.
Proof. split; reflexivity. Qed.

(** ** C42 names of the configurations *)
Theorem C42_names : forall ini names, config_names ini = Ok names ->
  forall n, In n names <->
    blank_free n /\
    (In ("#config " ++ n) (keys ini) \/
     exists sec, blank_free sec /\ In (config_section n sec) (keys ini) /\ In sec (keys ini)).
Proof.
  intros ini names E n. rewrite (names_loop ini _ _ E n). split.
  - intros (i & t & Hi & Es & Ht). assert (J := join_split " " i). rewrite Es in J.
    assert (B : forall f, In f ("#config" :: t) -> blank_free f).
    { intros f Hf. rewrite <- Es in Hf. eapply split_char_fields; exact Hf. }
    destruct Ht as [->|(s & -> & Hm)].
    + split; [apply B; right; left; reflexivity|]. left. rewrite <- J in Hi. exact Hi.
    + split; [apply B; right; left; reflexivity|]. right. exists s. split; [apply B; right; right; left; reflexivity|].
      split; [rewrite <- J in Hi; exact Hi|apply dmem_keys; exact Hm].
  - intros (B & [Hi|(s & Bs & Hi & Hs)]).
    + exists ("#config " ++ n), [n]. split; [exact Hi|]. split; [|left; reflexivity].
      change ("#config " ++ n) with ("#config" ++ String " " n). rewrite split_char_cons by reflexivity.
      rewrite split_char_nosep by exact B. reflexivity.
    + exists (config_section n s), [n; s]. split; [exact Hi|]. split.
      * unfold config_section. change ("#config " ++ n ++ " " ++ s) with ("#config" ++ String " " (n ++ String " " s)).
        rewrite split_char_cons by reflexivity. rewrite split_char_cons by exact B.
        rewrite split_char_nosep by exact Bs. reflexivity.
      * right. exists s. split; [reflexivity|]. apply dmem_keys. exact Hs.
Qed.
Print Assumptions C42_names.

(** it raises exactly for sections of any other shape whose first word is "#config" *)
Theorem C42_rejected : forall ini,
  (forall e, config_names ini = Err e -> e = AssertionError) /\
  ((exists e, config_names ini = Err e) <->
   exists i, In i (keys ini) /\
     (i = "#config" \/
      (exists n sec, blank_free n /\ blank_free sec /\ i = config_section n sec /\ ~ In sec (keys ini)) \/
      (exists n s r, blank_free n /\ blank_free s /\ i = config_section n s ++ " " ++ r))).
Proof.
  intros ini. destruct (names_loop_err ini (keys ini)) as [H1 H2]. split; [exact H2|].
  unfold config_names. rewrite H1. split.
  - intros (i & Hi & t & Es & M). exists i. split; [exact Hi|]. assert (J := join_split " " i). rewrite Es in J.
    assert (B : forall f, In f ("#config" :: t) -> blank_free f).
    { intros f Hf. rewrite <- Es in Hf. eapply split_char_fields; exact Hf. }
    destruct t as [|n [|s [|r rs]]]; [left; symmetry; exact J|destruct M| |].
    + right; left. exists n, s. split; [apply B; simpl; auto|]. split; [apply B; simpl; auto|].
      split; [symmetry; exact J|]. rewrite <- dmem_keys. congruence.
    + right; right. exists n, s, (join_char " " (r :: rs)). split; [apply B; simpl; auto|]. split; [apply B; simpl; auto|].
      rewrite <- J. unfold config_section.
      change (join_char " " ("#config" :: n :: s :: r :: rs)) with
        ("#config" ++ String " " (n ++ String " " (s ++ String " " (join_char " " (r :: rs))))).
      rewrite !sapp_assoc. reflexivity.
  - intros (i & Hi & [->|[(n & s & Bn & Bs & -> & Hs)|(n & s & r & Bn & Bs & ->)]]).
    + exists "#config". split; [exact Hi|]. exists []. split; reflexivity.
    + exists (config_section n s). split; [exact Hi|]. exists [n; s]. split.
      * unfold config_section. change ("#config " ++ n ++ " " ++ s) with ("#config" ++ String " " (n ++ String " " s)).
        rewrite split_char_cons by reflexivity. rewrite split_char_cons by exact Bn.
        rewrite split_char_nosep by exact Bs. reflexivity.
      * destruct (dmem string_dec s ini) eqn:E; [|reflexivity]. apply dmem_keys in E. tauto.
    + exists (config_section n s ++ " " ++ r). split; [exact Hi|]. exists (n :: s :: split_char " " r). split.
      * unfold config_section. change (("#config " ++ n ++ " " ++ s) ++ " " ++ r) with
          ("#config" ++ String " " ((n ++ String " " s) ++ String " " r)).
        rewrite split_char_cons by reflexivity. rewrite sapp_assoc. cbn [append].
        rewrite split_char_cons by exact Bn. rewrite split_char_cons by exact Bs. reflexivity.
      * destruct (split_char " " r) eqn:Er; [exfalso; eapply split_char_nonempty; exact Er|exact I].
Qed.
Print Assumptions C42_rejected.

Example C42_example :
  config_names ex_ini = Ok ["wet"; "wet"; "dry"] /\
  config_names [("#configs", []); ("a", []); ("#config x a", [])] = Ok ["x"] /\
  config_names [("#config x b", []); ("a", [])] = Err AssertionError.
Proof. repeat split. Qed.

(** ** C43 'None' *)
Definition typed_prefixes : list string := ["datetime__"; "path__"; "bool__"; "float__"; "int__"; "list__"].

(** any typed entry with the value None makes the whole call raise *)
Theorem C43_typed_none_refuted : forall pfloat pint D strptime resolve (ini : inifile) (inp : section) t name,
  pfloat "None" = None -> pint "None" = None ->
  dget string_dec "PROCESS_SPECS" ini = Some inp ->
  In t typed_prefixes -> In (t ++ name, Some "None") inp ->
  exists e, get_process_specs pfloat pint D strptime resolve ini = Err e.
Proof.
  intros pfloat pint D strptime resolve ini inp t name Hf Hi Hs Ht Hin.
  unfold get_process_specs, get_section. rewrite Hs. cbn [bind]. clear Hs. generalize (@nil (string * spec D)).
  induction inp as [|[k s] r IH]; [destruct Hin|]. intros acc. cbn [specs_loop].
  destruct Hin as [E|Hin].
  - inversion E; subst. assert (X : exists e, parse_spec pfloat pint D strptime resolve (t ++ name) (Some "None") = Err e).
    { destruct Ht as [<-|[<-|[<-|[<-|[<-|[<-|[]]]]]]]; unfold parse_spec; rewrite startswith_app;
        unfold getfloat, getint; rewrite ?Hf, ?Hi; eexists; reflexivity. }
    destruct X as [e X]. rewrite X. cbn [bind]. eauto.
  - destruct (parse_spec pfloat pint D strptime resolve k s); cbn [bind]; [apply IH; exact Hin|eauto].
Qed.
Print Assumptions C43_typed_none_refuted.

(** an untyped entry is returned as None *)
Theorem C43_untyped_none : forall pfloat pint D strptime resolve key,
  (forall t, In t typed_prefixes -> startswith t key = false) ->
  parse_spec pfloat pint D strptime resolve key (Some "None") = Ok (key, SVal D VNone) /\
  forall s, s <> "None" -> parse_spec pfloat pint D strptime resolve key (Some s) = Ok (key, SVal D (VStr s)).
Proof.
  intros pfloat pint D strptime resolve key H. unfold parse_spec.
  rewrite (H "datetime__") by (simpl; tauto). rewrite (H "path__") by (simpl; tauto).
  rewrite (H "bool__") by (simpl; tauto). rewrite (H "float__") by (simpl; tauto).
  rewrite (H "int__") by (simpl; tauto). rewrite (H "list__") by (simpl; tauto).
  split; [reflexivity|]. intros s Hs. apply String.eqb_neq in Hs. rewrite Hs. reflexivity.
Qed.
Print Assumptions C43_untyped_none.

Example C43_example :
  get_process_specs ex_float ex_int unit (fun _ _ => None) (fun s => s)
    [("PROCESS_SPECS", [("a", Some "None"); ("int__n", Some "None")])] = Err ValueError /\
  get_process_specs ex_float ex_int unit (fun _ _ => None) (fun s => s)
    [("PROCESS_SPECS", [("a", Some "None"); ("int__n", Some "10"); ("list__float__l", Some "[ 0.5, 1]")])]
  = Ok [("a", SVal unit VNone); ("n", SVal unit (VNum 10));
        ("l", SList unit [SVal unit (VNum (1#2)); SVal unit (VNum 1)])].
Proof. split; reflexivity. Qed.

(** ** C82 overriding the components of a linear combination *)
(** An override of the section that does not repeat the name of the linear
    combination leaves the components unchanged, and its component entries
    end up as arguments of the linear combination itself. *)
Theorem C82_component_override_refuted : forall pfloat pint (ini : inifile) name c c' p sec A (o : section),
  (p = "V" /\ sec = "RT1_V" /\ A = c_V) \/ (p = "SRF" /\ sec = "RT1_SRF" /\ A = c_SRF) ->
  get_config pfloat pint ini None = Ok c -> get_config pfloat pint ini (Some name) = Ok c' ->
  dget string_dec (config_section name sec) ini = Some o -> NoDup (keys o) ->
  ~ In "V_name" (keys o) -> ~ In "SRF_name" (keys o) -> ~ In (p ++ "choices") (keys o) ->
  dget string_dec (p ++ "choices") (A c') = dget string_dec (p ++ "choices") (A c) /\
  (forall k, In k (keys o) -> In k (keys (A c'))).
Proof.
  intros pfloat pint ini name c c' p sec A o Hp Ec Ec' Ho Hn HV HS Hch.
  assert (Hi : In (sec, A) parts) by (destruct Hp as [(-> & -> & ->)|(-> & -> & ->)]; simpl; auto 10).
  apply get_config_some_ok in Ec'. destruct Ec' as (c1 & E1 & Hu). assert (c1 = c) by congruence. subst c1. clear E1.
  assert (U := Hu sec A Hi). unfold upd, update_from in U.
  change (override_name name sec) with (config_section name sec) in U.
  assert (M : dmem string_dec (config_section name sec) ini = true) by (unfold dmem; rewrite Ho; reflexivity).
  rewrite M in U. apply bind_ok in U. destruct U as (v & Ev & U).
  assert (Ev' : parse_V_SRF pfloat pint ini (config_section name sec) = Ok v).
  { destruct Hp as [(-> & -> & ->)|(-> & -> & ->)]; exact Ev. }
  assert (Ev2 := Ev'). unfold parse_V_SRF, get_section in Ev2. rewrite Ho in Ev2. cbn [bind] in Ev2.
  apply bind_ok in Ev2. destruct Ev2 as (pd & Ep & _).
  apply parse_section_inv in Ep; [|exact Hn|simpl; tauto]. destruct Ep as (vals & -> & F). cbn [app] in *.
  assert (Hk : keys vals = keys o).
  { clear - F. induction F as [|a b l m [H _] _ IH]; [reflexivity|]. cbn. unfold keys in *. congruence. }
  assert (Hv : v = vals).
  { rewrite (C41_plain pfloat pint ini _ o vals Ho Hn) in Ev'; [congruence| | |].
    - eapply forall2_impl; [|exact F]. intros a b [H1 H2]. split; [exact H1|apply converted_iff; exact H2].
    - intros Q. assert (X := proj2 (dget_in_keys string_dec _ vals) ltac:(rewrite Q; discriminate)).
      rewrite Hk in X. tauto.
    - intros Q. assert (X := proj2 (dget_in_keys string_dec _ vals) ltac:(rewrite Q; discriminate)).
      rewrite Hk in X. tauto. }
  subst v. inversion U as [U']. split.
  - rewrite dget_dupdate by (rewrite Hk; exact Hn).
    replace (dget string_dec (p ++ "choices") vals) with (@None val); [reflexivity|].
    symmetry. apply dget_none. rewrite Hk. exact Hch.
  - intros k Hi'. rewrite <- Hk in Hi'. destruct (dget string_dec k (dupdate string_dec (A c) vals)) eqn:E.
    + apply (dget_in_keys string_dec). rewrite E. discriminate.
    + rewrite dget_dupdate in E by (rewrite Hk; exact Hn).
      destruct (dget string_dec k vals) eqn:E2; [discriminate|]. apply dget_none in E2. tauto.
Qed.
Print Assumptions C82_component_override_refuted.

(** an override that repeats the name replaces the whole list of components:
    those of the overridden section are all dropped *)
Theorem C82_restated_components : forall pfloat pint (ini : inifile) name c' p q sec A (o : section) vals,
  (p = "V" /\ q = "SRF" /\ sec = "RT1_V" /\ A = c_V) \/ (p = "SRF" /\ q = "V" /\ sec = "RT1_SRF" /\ A = c_SRF) ->
  get_config pfloat pint ini (Some name) = Ok c' ->
  dget string_dec (config_section name sec) ini = Some o -> NoDup (keys o) ->
  Forall2 (fun ks kv => fst ks = fst kv /\ converted pfloat pint (fst ks) (snd ks) (snd kv)) o vals ->
  dget string_dec (p ++ "_name") o = Some (Some ("LinComb" ++ p)) -> pfloat ("LinComb" ++ p) = None ->
  dget string_dec (q ++ "_name") o = None -> dget string_dec (p ++ "choices") o = None ->
  dget string_dec (p ++ "choices") (A c') =
    Some (VList (map (fun X => VList [frac_of X vals; VDict (params_of X vals)]) (letters vals))).
Proof.
  intros pfloat pint ini name c' p q sec A o vals Hp Ec' Ho Hn F Hname Hf Hq Hch.
  assert (Hi : In (sec, A) parts) by (destruct Hp as [(-> & -> & -> & ->)|(-> & -> & -> & ->)]; simpl; auto 10).
  assert (Hpq : (p = "V" /\ q = "SRF") \/ (p = "SRF" /\ q = "V")) by tauto.
  apply get_config_some_ok in Ec'. destruct Ec' as (c & E1 & Hu).
  assert (U := Hu sec A Hi). unfold upd, update_from in U.
  change (override_name name sec) with (config_section name sec) in U.
  assert (M : dmem string_dec (config_section name sec) ini = true) by (unfold dmem; rewrite Ho; reflexivity).
  rewrite M in U. apply bind_ok in U. destruct U as (v & Ev & U).
  assert (Nv := Ev). apply parser_nodup in Nv.
  assert (Ev' : parse_V_SRF pfloat pint ini (config_section name sec) = Ok v).
  { destruct Hp as [(-> & -> & -> & ->)|(-> & -> & -> & ->)]; exact Ev. }
  rewrite (C41_lincomb pfloat pint ini _ o vals p q Hpq Ho Hn F Hname Hf Hq Hch) in Ev'.
  inversion U as [U']. inversion Ev' as [V']. rewrite V'. rewrite dget_dupdate by exact Nv.
  replace (dget string_dec (p ++ "choices") v) with
    (Some (VList (map (fun X => VList [frac_of X vals; VDict (params_of X vals)]) (letters vals)))); [reflexivity|].
  symmetry. apply dget_in_nodup; [exact Nv|]. rewrite <- V'. apply in_or_app. right. left. reflexivity.
Qed.
Print Assumptions C82_restated_components.

Example C82_example :
  exists c c', get_config ex_float ex_int ex_ini None = Ok c /\ get_config ex_float ex_int ex_ini (Some "wet") = Ok c' /\
  c_V c' = (c_V c ++ [("A__frac", VNum (1#2))])%list /\
  dget string_dec "Vchoices" (c_V c) =
    Some (VList [VList [VNum (3#10); VDict [("V_name", VStr "Isotropic")]]; VList [VNum 1; VDict [("ncoefs", VNum 10)]]]).
Proof. eexists; eexists. split; [reflexivity|]. split; [reflexivity|]. repeat split. Qed.

(** ** C83 override sections that are accepted but have no effect *)
Theorem C83_no_effect_refuted : forall pfloat pint D strptime resolve (ini : inifile) name sec o names,
  (forall A, ~ In (sec, A) parts) -> blank_free name -> blank_free sec -> In sec (keys ini) ->
  config_names (dset string_dec (config_section name sec) o ini) = Ok names ->
  In name names /\
  get_config pfloat pint (dset string_dec (config_section name sec) o ini) (Some name) =
    get_config pfloat pint ini (Some name) /\
  get_process_specs pfloat pint D strptime resolve (dset string_dec (config_section name sec) o ini) =
    get_process_specs pfloat pint D strptime resolve ini.
Proof.
  intros pfloat pint D strptime resolve ini name sec o names Hs Bn Bs Hi E. split; [|split].
  - apply (proj2 (C42_names _ _ E name)). split; [exact Bn|]. right. exists sec. split; [exact Bs|].
    split; apply in_keys_dset; [left; reflexivity|right; exact Hi].
  - apply C39_locality. intros s A Hp. split; apply dget_dset_other.
    + intros Q. unfold config_section in Q. destruct Hp as [H|[H|[H|[H|[H|[]]]]]]; inversion H; subst; discriminate.
    + intros Q. apply config_section_inj in Q. subst. eapply Hs; exact Hp.
  - unfold get_process_specs, get_section. rewrite dget_dset_other; [reflexivity|]. discriminate.
Qed.
Print Assumptions C83_no_effect_refuted.

Example C83_example :
  (forall A, ~ In ("PROCESS_SPECS", A) parts) /\ blank_free "x" /\ In "PROCESS_SPECS" (keys ex_ini) /\
  config_names (dset string_dec (config_section "x" "PROCESS_SPECS") [("dumpfolder", Some "other")] ex_ini)
    = Ok ["wet"; "wet"; "dry"; "x"].
Proof.
  split; [|repeat split; simpl; auto].
  intros A H. simpl in H. repeat (destruct H as [H|H]; [inversion H|]). exact H.
Qed.

(** ** C84 lists in the process specifications *)
(** n fields give n entries in the written order, white space removed *)
Theorem C84_lists : forall pfloat pint D strptime resolve fields texts name,
  fields <> [] -> Forall comma_free fields -> Forall2 trims fields texts ->
  let read t := get_process_specs pfloat pint D strptime resolve
                  [("PROCESS_SPECS", [("list__" ++ t ++ name, Some (entry fields))])] in
  (forall qs, Forall2 (fun t q => pfloat t = Some q) texts qs ->
     read "float__" = Ok [(name, SList D (map (fun q => SVal D (VNum q)) qs))]) /\
  (forall zs, Forall2 (fun t z => pint t = Some z) texts zs ->
     read "int__" = Ok [(name, SList D (map (fun z => SVal D (VNum (inject_Z z))) zs))]) /\
  ((forall t, In t typed_prefixes -> startswith t name = false) ->
     read "" = Ok [(name, SList D (map (fun t => SVal D (VStr t)) texts))]).
Proof.
  intros pfloat pint D strptime resolve fields texts name Hn Hc Ht read.
  assert (Hcl : forall conv l, Forall2 (fun t v => conv t = Ok v) texts l -> convert_list D conv (entry fields) = Ok (SList D l)).
  { intros conv l F. unfold convert_list, entry. rewrite strip_brackets, inner_brackets.
    rewrite split_join; [|exact Hn|intros s Hs; rewrite Forall_forall in Hc; apply Hc; exact Hs].
    rewrite (mapM_forall2 _ fields l); [reflexivity|]. clear - Ht F. revert l F.
    induction Ht as [|f t fs ts H Ht IH]; intros l F; inversion F; subst; constructor; auto.
    rewrite (trims_strip f t H). assumption. }
  assert (Hb : startswith "[" (entry fields) && (endswith "]" (entry fields) || contains "fmt=" (entry fields)) = true).
  { assert (B := bracket_test (join_char "," fields)). unfold entry. apply andb_true_iff in B. destruct B as [B1 B2].
    rewrite B1, B2. reflexivity. }
  assert (Hnone : String.eqb (entry fields) "None" = false) by reflexivity.
  assert (Hread : forall t, read t = do kv <- parse_list_spec pfloat pint D strptime (t ++ name) (entry fields); Ok [kv]).
  { intros t. unfold read, get_process_specs, get_section. cbn [dget]. destruct (string_dec _ _); [|congruence].
    cbn [bind specs_loop]. unfold parse_spec. rewrite Hnone. rewrite startswith_app.
    change (startswith "datetime__" ("list__" ++ t ++ name)) with false.
    change (startswith "path__" ("list__" ++ t ++ name)) with false.
    change (startswith "bool__" ("list__" ++ t ++ name)) with false.
    change (startswith "float__" ("list__" ++ t ++ name)) with false.
    change (startswith "int__" ("list__" ++ t ++ name)) with false. cbn iota.
    change (drop 6 ("list__" ++ t ++ name)) with (t ++ name).
    destruct (parse_list_spec pfloat pint D strptime (t ++ name) (entry fields)) as [[a b]|]; reflexivity. }
  assert (F0 : forall {B C} (P : string -> B -> Prop) (Q : string -> C -> Prop) (g : B -> C) l,
     (forall t b, P t b -> Q t (g b)) -> Forall2 P texts l -> Forall2 Q texts (map g l)).
  { clear. intros B C P Q g l H F. induction F; constructor; auto. }
  split; [|split].
  - intros qs F. rewrite Hread. unfold parse_list_spec. rewrite Hb. rewrite startswith_app.
    change (startswith "bool__" ("float__" ++ name)) with false. cbn iota.
    erewrite Hcl; [reflexivity|]. eapply F0; [|exact F]. intros t q H. unfold getfloat. rewrite H. reflexivity.
  - intros zs F. rewrite Hread. unfold parse_list_spec. rewrite Hb. rewrite startswith_app.
    change (startswith "bool__" ("int__" ++ name)) with false.
    change (startswith "float__" ("int__" ++ name)) with false. cbn iota.
    erewrite Hcl; [reflexivity|]. eapply F0; [|exact F]. intros t q H. unfold getint. rewrite H. reflexivity.
  - intros Hp. rewrite Hread. unfold parse_list_spec. rewrite Hb. cbn [append].
    rewrite (Hp "bool__"), (Hp "float__"), (Hp "int__"), (Hp "datetime__") by (simpl; tauto).
    rewrite (Hcl _ (map (fun t => SVal D (VStr t)) texts)); [reflexivity|].
    clear. induction texts; constructor; auto.
Qed.
Print Assumptions C84_lists.

(** the empty list cannot be written *)
Theorem C84_empty_list_refuted : forall pfloat pint D strptime resolve name,
  pfloat "" = None -> pint "" = None ->
  let read t := get_process_specs pfloat pint D strptime resolve
                  [("PROCESS_SPECS", [("list__" ++ t ++ name, Some "[]")])] in
  read "float__" = Err ValueError /\ read "int__" = Err ValueError /\
  ((forall t, In t typed_prefixes -> startswith t name = false) ->
     read "" = Ok [(name, SList D [SVal D (VStr "")])]).
Proof.
  intros pfloat pint D strptime resolve name Hf Hi read.
  assert (T : Forall2 trims [""] [""]).
  { constructor; [|constructor]. split; [split|exists "", ""; repeat split].
    - intros c r H; discriminate.
    - intros c r H. destruct r; discriminate. }
  assert (Hread : forall t, read t = do kv <- parse_list_spec pfloat pint D strptime (t ++ name) "[]"; Ok [kv]).
  { intros t. unfold read, get_process_specs, get_section. cbn [dget]. destruct (string_dec _ _); [|congruence].
    cbn [bind specs_loop]. unfold parse_spec. rewrite startswith_app.
    change (startswith "datetime__" ("list__" ++ t ++ name)) with false.
    change (startswith "path__" ("list__" ++ t ++ name)) with false.
    change (startswith "bool__" ("list__" ++ t ++ name)) with false.
    change (startswith "float__" ("list__" ++ t ++ name)) with false.
    change (startswith "int__" ("list__" ++ t ++ name)) with false. cbn iota.
    change (drop 6 ("list__" ++ t ++ name)) with (t ++ name). cbn [String.eqb Ascii.eqb Bool.eqb].
    destruct (parse_list_spec pfloat pint D strptime (t ++ name) "[]") as [[a b]|]; reflexivity. }
  assert (Hcl : forall conv, convert_list D conv "[]" = do x <- conv ""; Ok (SList D [x])).
  { intros conv. unfold convert_list. change (split_char "," (inner (strip "[]"))) with [""]. cbn [mapM].
    change (strip "") with "". destruct (conv ""); reflexivity. }
  split; [|split].
  - rewrite Hread. unfold parse_list_spec. rewrite startswith_app.
    change (startswith "bool__" ("float__" ++ name)) with false.
    change (startswith "[" "[]" && _) with true. cbn iota. rewrite Hcl. unfold getfloat. rewrite Hf. reflexivity.
  - rewrite Hread. unfold parse_list_spec. rewrite startswith_app.
    change (startswith "bool__" ("int__" ++ name)) with false.
    change (startswith "float__" ("int__" ++ name)) with false.
    change (startswith "[" "[]" && _) with true. cbn iota. rewrite Hcl. unfold getint. rewrite Hi. reflexivity.
  - intros Hp. exact (proj2 (proj2 (C84_lists pfloat pint D strptime resolve [""] [""] name
      ltac:(discriminate) ltac:(repeat constructor) T)) Hp).
Qed.
Print Assumptions C84_empty_list_refuted.

Example C84_example :
  trims " 0.5 " "0.5" /\ entry [" 0.5 "; "1"] = "[ 0.5 ,1]" /\
  get_process_specs ex_float ex_int unit (fun _ _ => None) (fun s => s)
    [("PROCESS_SPECS", [("list__float__lf", Some "[ 0.5 ,1]")])]
  = Ok [("lf", SList unit [SVal unit (VNum (1#2)); SVal unit (VNum 1)])].
Proof.
  split; [|split; reflexivity]. split.
  - split; intros c r H.
    + inversion H; reflexivity.
    + destruct r as [|a [|b [|d r]]]; simpl in H; inversion H; try reflexivity. destruct r; discriminate.
  - exists " ", " ". repeat split.
Qed.

(** ** C85 the entries of the process specifications are read one by one *)
Theorem C85_entries : forall pfloat pint D strptime resolve (ini : inifile) (inp : section) r,
  dget string_dec "PROCESS_SPECS" ini = Some inp ->
  (get_process_specs pfloat pint D strptime resolve ini = Ok r <->
   exists kvs : list (string * spec D),
     (* each entry, alone in a file, *)
     Forall2 (fun e kv => get_process_specs pfloat pint D strptime resolve [("PROCESS_SPECS", [e])] = Ok [kv]) inp kvs /\
     (* is stored under its name, the last one wins *)
     r = dupdate string_dec [] kvs).
Proof.
  intros pfloat pint D strptime resolve ini inp r Hs.
  unfold get_process_specs at 1, get_section. rewrite Hs. cbn [bind].
  assert (X : forall e kv, get_process_specs pfloat pint D strptime resolve [("PROCESS_SPECS", [e])] = Ok [kv] <->
              parse_spec pfloat pint D strptime resolve (fst e) (snd e) = Ok kv).
  { intros [k s] kv. unfold get_process_specs, get_section. cbn [dget]. destruct (string_dec _ _); [|congruence].
    cbn [bind specs_loop fst snd]. destruct (parse_spec pfloat pint D strptime resolve k s) as [[a b]|]; cbn; split;
      intros Q; inversion Q; reflexivity. }
  rewrite specs_loop_acc. split; intros (kvs & F & ->); exists kvs; split; try reflexivity;
    (eapply forall2_impl; [|exact F]; intros e kv H; apply X; exact H).
Qed.
Print Assumptions C85_entries.

(** two entries of different type with the same name: one silently replaces the other *)
Theorem C85_name_clash_refuted : forall pfloat pint D strptime resolve name f z q,
  pint z = Some q -> pfloat f <> None ->
  get_process_specs pfloat pint D strptime resolve
    [("PROCESS_SPECS", [("float__" ++ name, Some f); ("int__" ++ name, Some z)])] =
  Ok [(name, SVal D (VNum (inject_Z q)))].
Proof.
  intros pfloat pint D strptime resolve name f z q Hz Hf.
  unfold get_process_specs, get_section. cbn [dget]. destruct (string_dec _ _); [|congruence].
  cbn [bind specs_loop]. unfold parse_spec. rewrite !startswith_app.
  change (startswith "datetime__" ("float__" ++ name)) with false.
  change (startswith "path__" ("float__" ++ name)) with false.
  change (startswith "bool__" ("float__" ++ name)) with false.
  change (startswith "datetime__" ("int__" ++ name)) with false.
  change (startswith "path__" ("int__" ++ name)) with false.
  change (startswith "bool__" ("int__" ++ name)) with false.
  change (startswith "float__" ("int__" ++ name)) with false. cbn iota.
  unfold getfloat, getint. rewrite Hz. destruct (pfloat f); [|congruence].
  change (drop 7 ("float__" ++ name)) with name. change (drop 5 ("int__" ++ name)) with name.
  cbn [bind specs_loop fst snd dset].
  destruct (string_dec name name); [reflexivity|congruence].
Qed.
Print Assumptions C85_name_clash_refuted.

Example C85_example :
  get_process_specs ex_float ex_int unit (fun _ _ => None) (fun s => s)
    [("PROCESS_SPECS", [("float__x", Some "0.5"); ("y", Some "a"); ("int__x", Some "10")])]
  = Ok [("x", SVal unit (VNum 10)); ("y", SVal unit (VStr "a"))].
Proof. reflexivity. Qed.
