(** Properties C35-C38, C79-C81: the defdict container (rt1/_containers.py).
    Only property theorems, examples and assumption listings. *)
From Coq Require Import List Arith ZArith QArith Bool String Lia.
From Verif Require Import Base Base_Proofs Con_Model Con_Spec Con_Proofs.
Import ListNotations.
Open Scope string_scope.

(** a history with insertion, failed calls, removal and re-insertion, used by the examples *)
Definition history : list op :=
  [ Add "tau" [VBool true; VNum (1#10)] [("maxval", VNum 3)];
    Add "omega" [] [("fitQ", VBool false)];
    Assign "N" (VDict [("freq", VStr "10D")]);
    Add "bad" [] [("fitq", VBool false)];
    Remove "tau";
    Remove "tau";
    SetItem "omega" 3%Z (VTup [VList [VNum 0]; VList [VNum (1#2)]]);
    Add "tau" [] [];
    SetProp "N" "val" (VStr "auxiliary") ].

(** ** C35 list representation round trip *)
Theorem C35_list_roundtrip : forall d, reachable d ->
  exists items d', to_dict "list" d = Ok items /\ from_dict items = Ok d' /\
    keys items = dd_keys d /\ same_definitions d' d.
Proof. intros d H. apply rebuild_list. apply reachable_wf. exact H. Qed.
Print Assumptions C35_list_roundtrip.

Theorem C35_documented_lists : forall defs : list (string * props),
  NoDup (map fst defs) ->
  exists d, from_dict (map (fun np => (fst np, prop_list (snd np))) defs) = Ok d /\
    dd_keys d = map fst defs /\
    (forall x p, In (x, p) defs -> has_props x p d) /\
    to_dict "list" d = Ok (map (fun np => (fst np, prop_list (snd np))) defs).
Proof.
  intros defs Hn. set (items := map _ defs).
  assert (Hk : keys items = map fst defs).
  { unfold keys, items. rewrite map_map. reflexivity. }
  destruct (from_dict_loop_spec items new_defdict) as (d & E & K & G).
  - rewrite Hk. exact Hn.
  - simpl; tauto.
  - intros k v Hi. apply in_map_iff in Hi. destruct Hi as ([n p] & Q & _). inversion Q; subst. reflexivity.
  - exists d. split; [exact E|]. split; [unfold dd_keys; rewrite K; exact Hk|].
    assert (P : forall x p, In (x, p) defs -> getitem x d = entry_var x (prop_list p)).
    { intros x p Hi. apply G. apply in_map_iff. exists (x, p). auto. }
    split.
    + intros x p Hi. unfold has_props, property. rewrite (P x p Hi). repeat split; reflexivity.
    + rewrite wf_to_list; [|eapply from_dict_loop_wf; [apply wf_new|exact E]].
      rewrite K. cbn [d_variables new_defdict app]. rewrite Hk, map_map. f_equal.
      unfold items. apply map_ext_in. intros [x p] Hi. cbn [fst snd]. rewrite (P x p Hi). reflexivity.
Qed.
Print Assumptions C35_documented_lists.

Example C35_example :
  let d := fst (run history new_defdict) in
  reachable d /\ dd_keys d = ["omega"; "N"; "tau"] /\
  to_dict "list" d = Ok
    [("omega", VList [VBool false; VNum (1#2); VNone; VTup [VList [VNum 0]; VList [VNum (1#2)]]; VBool false]);
     ("N", VList [VBool true; VStr "auxiliary"; VStr "10D"; VTup [VList [VNum 0]; VList [VNum 1]]; VBool false]);
     ("tau", VList [VBool true; VNum (1#2); VNone; VTup [VList [VNum 0]; VList [VNum 1]]; VBool false])].
Proof.
  split; [|split; reflexivity].
  assert (H : forall ops d, reachable d -> reachable (fst (run ops d))).
  { induction ops as [|o r IH]; intros d H; [exact H|]. cbn [run].
    assert (Hs := IH _ (R_step d o H)). destruct (step o d) as [d1 e]. cbn [fst] in Hs.
    destruct (run r d1). exact Hs. }
  apply H. apply R_new.
Qed.

(** ** C36 dict representation *)
(** the conversion raises for every defdict that has a variable *)
Theorem C36_dict_representation_refuted : forall d, reachable d -> dd_keys d <> [] ->
  to_dict "dict" d = Err AttributeError.
Proof.
  intros d H Hk. apply reachable_wf in H. unfold to_dict. cbn [String.eqb Ascii.eqb eqb].
  destruct d as [[|n r] vars attrs]; [exfalso; apply Hk; reflexivity|].
  assert (Hi : In n (d_variables (mkdd (n :: r) vars attrs))) by (left; reflexivity).
  apply wf_getitem in Hi; [|exact H]. destruct Hi as [x Hx].
  cbn [to_dict_loop d_variables]. rewrite Hx. reflexivity.
Qed.
Print Assumptions C36_dict_representation_refuted.

(** the other half of the round trip: the documented dictionaries rebuild the definitions *)
Theorem C36_documented_dicts : forall defs : list (string * props),
  NoDup (map fst defs) ->
  exists d, from_dict (map (fun np => (fst np, prop_dict (snd np))) defs) = Ok d /\
    dd_keys d = map fst defs /\ (forall x p, In (x, p) defs -> has_props x p d).
Proof.
  intros defs Hn. set (items := map _ defs).
  assert (Hk : keys items = map fst defs).
  { unfold keys, items. rewrite map_map. reflexivity. }
  destruct (from_dict_loop_spec items new_defdict) as (d & E & K & G).
  - rewrite Hk. exact Hn.
  - simpl; tauto.
  - intros k v Hi. apply in_map_iff in Hi. destruct Hi as ([n p] & Q & _). inversion Q; subst. reflexivity.
  - exists d. split; [exact E|]. split; [unfold dd_keys; rewrite K; exact Hk|].
    intros x p Hi. assert (P : getitem x d = entry_var x (prop_dict p)).
    { apply G. apply in_map_iff. exists (x, p). auto. }
    unfold has_props, property. rewrite P. repeat split; reflexivity.
Qed.
Print Assumptions C36_documented_dicts.

Example C36_example :
  let d := fst (run history new_defdict) in
  reachable d /\ dd_keys d <> [] /\ to_dict "dict" d = Err AttributeError.
Proof. split; [apply (proj1 C35_example)|]. split; [discriminate|reflexivity]. Qed.

(** ** C37 the listing *)
Theorem C37_listing : forall ops d h,
  run ops new_defdict = (d, h) ->
  NoDup (dd_keys d) /\
  (forall x, In x (dd_keys d) <-> defined_after (rev h) x = true) /\
  (forall x, In x (dd_keys d) <-> exists v, getitem x d = Ok v) /\
  (forall x y, before x y (dd_keys d) <->
     In x (dd_keys d) /\ In y (dd_keys d) /\ (inserted_at (rev h) x < inserted_at (rev h) y)%nat).
Proof.
  intros ops d h E. destruct (run_inv ops) as [W (H1 & H2 & H3)]. rewrite E in *. cbn [fst snd] in *.
  split; [apply W|]. split; [exact H1|]. split; [intros x; apply wf_getitem; exact W|].
  apply ss_before. exact H3.
Qed.
Print Assumptions C37_listing.

Theorem C37_definitions_listed : forall d, reachable d ->
  NoDup (dd_keys d) /\ forall x, In x (dd_keys d) <-> exists v, getitem x d = Ok v.
Proof.
  intros d H. apply reachable_wf in H. split; [apply H|]. intros x. apply wf_getitem. exact H.
Qed.
Print Assumptions C37_definitions_listed.

Theorem C37_calls_are_local : forall d o, reachable d ->
  (forall x k, x <> target o -> property x k (fst (step o d)) = property x k d) /\
  (forall e, snd (step o d) = Some e -> fst (step o d) = d).
Proof.
  intros d o H. apply reachable_wf in H. split.
  - intros x k Hx. unfold property. rewrite step_other; auto.
  - intros e He. eapply step_err; eauto.
Qed.
Print Assumptions C37_calls_are_local.

Theorem C37_set_then_read : forall d x k v,
  In k paramnames -> In x (dd_keys d) -> reachable d ->
  (exists d', step (SetProp x k v) d = (d', None) /\ dd_keys d' = dd_keys d /\
     forall k', In k' paramnames -> property x k' d' = if String.eqb k' k then Some v else property x k' d) /\
  (exists d', step (SetKey x k v) d = (d', None) /\ dd_keys d' = dd_keys d /\
     forall k', In k' paramnames -> property x k' d' = if String.eqb k' k then Some v else property x k' d).
Proof.
  intros d x k v Hk Hx H. apply reachable_wf in H. apply wf_getitem in Hx; [|exact H]. destruct Hx as [y Hy].
  destruct (set_param_some k v y Hk) as [y' E].
  split; cbn [step]; unfold modify, setattr_var, setitem_key; rewrite Hy, E; (eexists; split; [reflexivity|]);
    (split; [reflexivity|]); intros k' Hk'; unfold property; rewrite getitem_put_same, Hy;
    apply get_set_param; exact E.
Qed.
Print Assumptions C37_set_then_read.

Theorem C37_add_sets_properties : forall d x kw, NoDup (keys kw) ->
  (forall k, In k (keys kw) -> In k paramnames) ->
  exists d', step (Add x [] kw) d = (d', None) /\ In x (dd_keys d') /\
    forall k, In k paramnames ->
      property x k d' = match dget string_dec k kw with
                        | Some v => Some v
                        | None => get_param k (mkvar VNone (VBool true) (VNum (1#2)) VNone (VNum 0) (VNum 1) (VBool false) [])
                        end.
Proof.
  intros d x kw Hn Hs. destruct (bind_kw_ok kw default_props Hs) as [p Hp].
  exists (add_variable x p d). cbn [step]. unfold bind_args. cbn [List.length firstn].
  assert (Hf : existsb (fun k => inb string_dec k []) (map fst kw) = false).
  { clear. induction (map fst kw); [reflexivity|]. cbn [existsb]. rewrite IHl. reflexivity. }
  rewrite Hf. cbn [bind_pos bind paramnames]. rewrite Hp. split; [reflexivity|]. split.
  - unfold dd_keys, add_variable; cbn [d_variables]. destruct (inb string_dec x (d_variables d)) eqn:E.
    + apply inb_iff in E. exact E.
    + rewrite in_app_iff. right; left; reflexivity.
  - intros k Hk. rewrite property_add.
    assert (Q := bind_kw_from_dict kw default_props p (VStr x) [] Hp).
    change (mkvar (VStr x) (p_fitQ p) (p_val p) (p_freq p) (p_minval p) (p_maxval p) (p_interpQ p) [])
      with (var_of (VStr x) p []).
    rewrite (from_dict_var_get kw _ _ Hn Q k Hk). destruct (dget string_dec k kw); reflexivity.
Qed.
Print Assumptions C37_add_sets_properties.

Example C37_example :
  let '(d, h) := run history new_defdict in
  dd_keys d = ["omega"; "N"; "tau"] /\
  map snd h = [None; None; None; Some TypeError; None; Some AttributeError; None; None; None] /\
  before "N" "tau" (dd_keys d) /\ inserted_at (rev h) "N" = 2%nat /\ inserted_at (rev h) "tau" = 7%nat /\
  property "omega" "maxval" d = Some (VNum (1#2)) /\ property "tau" "maxval" d = Some (VNum 1).
Proof.
  cbn. split; [reflexivity|]. split; [reflexivity|]. split; [exists ["omega"], [], []; reflexivity|].
  repeat split.
Qed.

(** ** C38 assigning a property list *)
(** whatever list is assigned, the variable differs from the one from_dict builds from the same list *)
Theorem C38_list_assignment_refuted : forall d x l d1 d2,
  String.prefix "_" x = false -> ~ In x (dd_keys d) ->
  step (Assign x (VList l)) d = (d1, None) -> from_dict [(x, VList l)] = Ok d2 ->
  exists k, In k paramnames /\ property x k d1 <> property x k d2.
Proof.
  intros d x l d1 d2 Hx Hi E1 E2. cbn [step] in E1. rewrite (assign_new x (VList l) d Hx Hi) in E1.
  destruct (bind_pos paramnames l default_props) as [p|] eqn:Ep; [|discriminate].
  inversion E1; subst; clear E1.
  assert (Q := from_dict_single x (VList l)). destruct (entry_var x (VList l)) as [y|] eqn:Ey; [|congruence].
  destruct Q as (d0 & Q1 & Q2 & _). assert (d0 = d2) by congruence; subst d0.
  assert (R : forall k, property x k d2 = get_param k y) by (intros k; unfold property; rewrite Q2; reflexivity).
  cbn [entry_var] in Ey. unfold from_list in Ey.
  destruct l as [|a [|b [|c [|m [|i [|z l]]]]]]; cbn in Ep, Ey.
  - inversion Ep; inversion Ey; subst. exists "fitQ". split; [simpl; tauto|]. rewrite property_add, R. discriminate.
  - inversion Ep; inversion Ey; subst. exists "val". split; [simpl; tauto|]. rewrite property_add, R. discriminate.
  - inversion Ep; inversion Ey; subst. exists "minval". split; [simpl; tauto|]. rewrite property_add, R. discriminate.
  - inversion Ep; inversion Ey; subst. exists "minval". split; [simpl; tauto|]. rewrite property_add, R. discriminate.
  - destruct (unpack_minmax m) as [[u w]|] eqn:U; cbn in Ey; [|discriminate]. apply unpack_minmax_neq in U.
    inversion Ep; inversion Ey; subst. exists "minval". split; [simpl; tauto|]. rewrite property_add, R. cbn. congruence.
  - destruct (unpack_minmax m) as [[u w]|] eqn:U; cbn in Ey; [|discriminate]. apply unpack_minmax_neq in U.
    inversion Ep; inversion Ey; subst. exists "minval". split; [simpl; tauto|]. rewrite property_add, R. cbn. congruence.
  - discriminate.
Qed.
Print Assumptions C38_list_assignment_refuted.

(** dictionaries are assigned as from_dict does *)
Theorem C38_dict_assignment : forall d x kw,
  String.prefix "_" x = false -> ~ In x (dd_keys d) ->
  (forall k, In k (keys kw) -> In k paramnames) ->
  exists d1 d2, step (Assign x (VDict kw)) d = (d1, None) /\ from_dict [(x, VDict kw)] = Ok d2 /\
    forall k, property x k d1 = property x k d2.
Proof.
  intros d x kw Hx Hi Hk. cbn [step]. rewrite (assign_new x (VDict kw) d Hx Hi).
  destruct (bind_kw_ok kw default_props Hk) as [p Hp]. rewrite Hp.
  assert (Q := from_dict_single x (VDict kw)). cbn [entry_var] in Q.
  assert (F := bind_kw_from_dict kw default_props p (VStr x) [] Hp).
  change (var_of (VStr x) default_props []) with
    (mkvar (VStr x) (VBool true) (VNum (1#2)) VNone (VNum 0) (VNum 1) (VBool false) []) in F.
  rewrite F in Q. destruct Q as (d2 & E2 & G & _).
  exists (add_variable x p d), d2. split; [reflexivity|]. split; [exact E2|].
  intros k. rewrite property_add. unfold property. rewrite G. reflexivity.
Qed.
Print Assumptions C38_dict_assignment.

Example C38_example :
  let l := [VBool true; VNum (1#2); VNone; VTup [VList [VNum 0]; VList [VNum 2]]; VBool true] in
  exists d1 d2, step (Assign "tau" (VList l)) new_defdict = (d1, None) /\ from_dict [("tau", VList l)] = Ok d2 /\
    property "tau" "minval" d1 = Some (VTup [VList [VNum 0]; VList [VNum 2]]) /\
    property "tau" "minval" d2 = Some (VNum 0) /\
    property "tau" "maxval" d1 = Some (VBool true) /\ property "tau" "maxval" d2 = Some (VNum 2).
Proof. eexists; eexists. split; [reflexivity|]. split; [reflexivity|]. repeat split. Qed.

(** ** C79 omitted properties *)
Definition documented_default (k : string) : option val :=
  dget string_dec k [("fitQ", VBool true); ("val", VNum (1#2)); ("freq", VNone); ("minval", VNum 0);
                     ("maxval", VNum 1); ("interpQ", VBool false)].

Theorem C79_omitted_in_dict : forall x kw d, NoDup (keys kw) ->
  from_dict [(x, VDict kw)] = Ok d ->
  forall k, In k paramnames ->
    property x k d = match dget string_dec k kw with Some v => Some v | None => documented_default k end.
Proof.
  intros x kw d Hn E k Hk.
  assert (Q := from_dict_single x (VDict kw)). destruct (entry_var x (VDict kw)) as [y|] eqn:Ey; [|congruence].
  destruct Q as (d' & Q1 & Q2 & _). assert (d' = d) by congruence; subst. unfold property. rewrite Q2.
  cbn [entry_var] in Ey. rewrite (from_dict_var_get kw _ _ Hn Ey k Hk).
  destruct (dget string_dec k kw); [reflexivity|].
  simpl in Hk. repeat (destruct Hk as [<-|Hk]; [reflexivity|]). destruct Hk.
Qed.
Print Assumptions C79_omitted_in_dict.

(** in a list, every omitted property is None instead of its default *)
Theorem C79_omitted_in_list_refuted : forall x l d,
  (List.length l < 5)%nat -> from_dict [(x, VList l)] = Ok d ->
  property x "interpQ" d = Some VNone /\
  ((List.length l < 4)%nat -> property x "minval" d = Some VNone /\ property x "maxval" d = Some VNone) /\
  ((List.length l < 2)%nat -> property x "val" d = Some VNone) /\
  ((List.length l < 1)%nat -> property x "fitQ" d = Some VNone).
Proof.
  intros x l d Hl E.
  assert (Q := from_dict_single x (VList l)). destruct (entry_var x (VList l)) as [y|] eqn:Ey; [|congruence].
  destruct Q as (d' & Q1 & Q2 & _). assert (d' = d) by congruence; subst.
  assert (R : forall k, property x k d = get_param k y) by (intros k; unfold property; rewrite Q2; reflexivity).
  rewrite !R. cbn [entry_var] in Ey. unfold from_list in Ey.
  destruct l as [|a [|b [|c [|m [|i l]]]]]; cbn in Ey.
  - inversion Ey; subst. cbn. repeat split; reflexivity.
  - inversion Ey; subst. cbn. repeat split; try reflexivity; lia.
  - inversion Ey; subst. cbn. repeat split; try reflexivity; lia.
  - inversion Ey; subst. cbn. repeat split; try reflexivity; lia.
  - destruct (unpack_minmax m) as [[u w]|]; cbn in Ey; [|discriminate]. inversion Ey; subst. cbn.
    repeat split; try reflexivity; lia.
  - cbn in Hl. lia.
Qed.
Print Assumptions C79_omitted_in_list_refuted.

Example C79_example :
  exists d d', from_dict [("tau", VList [VBool true; VNum (1#4)])] = Ok d /\
    from_dict [("tau", VDict [("fitQ", VBool true); ("val", VNum (1#4))])] = Ok d' /\
    property "tau" "maxval" d = Some VNone /\ property "tau" "maxval" d' = Some (VNum 1).
Proof. eexists; eexists. split; [reflexivity|]. split; [reflexivity|]. split; reflexivity. Qed.

(** ** C80 assigning to the attribute of a variable that exists *)
(** the assignment is accepted and changes no definition *)
Theorem C80_reassignment_refuted : forall d x v, reachable d -> In x (dd_keys d) -> x <> "var" ->
  exists d', step (Assign x v) d = (d', None) /\ same_definitions d' d.
Proof.
  intros d x v H Hx Hv. cbn [step]. unfold setattr_defdict.
  assert (E : inb string_dec x (d_variables d) = true) by (apply inb_iff; exact Hx). rewrite E.
  rewrite andb_false_r. apply String.eqb_neq in Hv. rewrite Hv.
  eexists. split; [reflexivity|]. split; [reflexivity|]. intros y k. reflexivity.
Qed.
Print Assumptions C80_reassignment_refuted.

(** add_variable does replace the definition, at the old position *)
Theorem C80_add_replaces : forall d x kw d', reachable d -> In x (dd_keys d) -> NoDup (keys kw) ->
  step (Add x [] kw) d = (d', None) ->
  dd_keys d' = dd_keys d /\
  forall k, In k paramnames ->
    property x k d' = match dget string_dec k kw with Some v => Some v | None => documented_default k end.
Proof.
  intros d x kw d' H Hx Hn E. cbn [step] in E. unfold bind_args in E. cbn [List.length firstn] in E.
  assert (Hf : existsb (fun k => inb string_dec k []) (map fst kw) = false).
  { clear. induction (map fst kw); [reflexivity|]. cbn [existsb]. rewrite IHl. reflexivity. }
  rewrite Hf in E. cbn [bind_pos bind paramnames] in E. destruct (bind_kw kw default_props) as [p|] eqn:Hp; [|discriminate].
  inversion E; subst. split.
  - unfold dd_keys, add_variable; cbn [d_variables].
    assert (Hb : inb string_dec x (d_variables d) = true) by (apply inb_iff; exact Hx). rewrite Hb. reflexivity.
  - intros k Hk. rewrite property_add.
    assert (Q := bind_kw_from_dict kw default_props p (VStr x) [] Hp).
    change (mkvar (VStr x) (p_fitQ p) (p_val p) (p_freq p) (p_minval p) (p_maxval p) (p_interpQ p) [])
      with (var_of (VStr x) p []).
    rewrite (from_dict_var_get kw _ _ Hn Q k Hk). destruct (dget string_dec k kw); [reflexivity|].
    simpl in Hk. repeat (destruct Hk as [<-|Hk]; [reflexivity|]). destruct Hk.
Qed.
Print Assumptions C80_add_replaces.

Example C80_example :
  let d := fst (run history new_defdict) in
  In "tau" (dd_keys d) /\
  property "tau" "val" (fst (step (Assign "tau" (VDict [("val", VNum 2)])) d)) = Some (VNum (1#2)) /\
  property "tau" "val" (fst (step (Add "tau" [] [("val", VNum 2)]) d)) = Some (VNum 2).
Proof. split; [right; right; left; reflexivity|]. split; reflexivity. Qed.

(** ** C81 misspelled property names *)
(** from_dict accepts any unknown key and ignores it *)
Theorem C81_unknown_key_refuted : forall x k v,
  ~ In k paramnames -> k <> "name" -> k <> "_props" ->
  exists d, from_dict [(x, VDict [(k, v)])] = Ok d /\
    forall k', In k' paramnames -> property x k' d = documented_default k'.
Proof.
  intros x k v Hk H1 H2.
  assert (Q := from_dict_single x (VDict [(k, v)])). cbn [entry_var from_dict_var] in Q. unfold setattr_var in Q.
  rewrite (set_param_none _ _ _ Hk) in Q. apply String.eqb_neq in H1. apply String.eqb_neq in H2.
  rewrite H1, H2 in Q. cbn [orb bind] in Q. destruct Q as (d & E & G & _). exists d. split; [exact E|].
  intros k' Hk'. unfold property. rewrite G.
  simpl in Hk'. repeat (destruct Hk' as [<-|Hk']; [reflexivity|]). destruct Hk'.
Qed.
Print Assumptions C81_unknown_key_refuted.

(** the keyword call and the attribute assignment reject it and change nothing *)
Theorem C81_unknown_key_rejected : forall d x kw k, String.prefix "_" x = false -> ~ In x (dd_keys d) ->
  In k (keys kw) -> ~ In k paramnames ->
  step (Add x [] kw) d = (d, Some TypeError) /\ step (Assign x (VDict kw)) d = (d, Some TypeError).
Proof.
  intros d x kw k Hx Hi Hk Hn.
  assert (B : forall p, bind_kw kw p = Err TypeError).
  { clear - Hk Hn. induction kw as [|[k0 v] r IH]; [destruct Hk|]. intros p. cbn [bind_kw].
    destruct (set_prop k0 v p) as [p'|e] eqn:E; cbn [bind].
    - destruct Hk as [Hk|Hk]; [|apply IH; exact Hk]. cbn [fst] in Hk; subst.
      assert (F := set_prop_param _ _ _ _ VNone [] E). rewrite (set_param_none _ _ _ Hn) in F. discriminate.
    - unfold set_prop in E.
      repeat match type of E with (if ?c then _ else _) = _ => destruct c end; congruence. }
  split.
  - cbn [step]. unfold bind_args. cbn [List.length firstn].
    assert (Hf : existsb (fun k => inb string_dec k []) (map fst kw) = false).
    { clear. induction (map fst kw); [reflexivity|]. cbn [existsb]. rewrite IHl. reflexivity. }
    rewrite Hf. cbn [bind_pos bind paramnames]. rewrite B. reflexivity.
  - cbn [step]. rewrite (assign_new x (VDict kw) d Hx Hi), B. reflexivity.
Qed.
Print Assumptions C81_unknown_key_rejected.

Example C81_example :
  (exists d, from_dict [("tau", VDict [("fitq", VBool false)])] = Ok d /\
     property "tau" "fitQ" d = Some (VBool true)) /\
  step (Assign "tau" (VDict [("fitq", VBool false)])) new_defdict = (new_defdict, Some TypeError).
Proof. split; [eexists; split; reflexivity|reflexivity]. Qed.
