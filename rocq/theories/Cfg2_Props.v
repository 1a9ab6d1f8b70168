(** C104 and C105: which configuration files are accepted, and the types of
    the values read from them. *)
From Coq Require Import List ZArith QArith Arith Bool String Ascii Lia.
From Verif Require Import Base Base_Proofs Str_Model Str_Proofs Con_Model Con_Proofs Cfg_Model Cfg_Spec Cfg_Proofs Cfg2_Spec Cfg2_Proofs.
Import ListNotations.
Open Scope nat_scope.
Open Scope string_scope.

(** ** C104 the check of a configuration file *)
Theorem C104_accepted_iff_usable : forall ini, check_integrity ini = Ok tt <-> usable ini.
Proof.
  intros ini. unfold check_integrity. split.
  - destruct (forallb _ _) eqn:E1 at 1; cbn [negb]; [|discriminate].
    rewrite forallb_forall in E1. unfold get_section.
    destruct (dget string_dec "PROCESS_SPECS" ini) as [ps|] eqn:Ep; cbn [bind]; [|discriminate].
    destruct (forallb _ _) eqn:E2 at 1; cbn [negb]; [|discriminate].
    rewrite forallb_forall in E2.
    destruct (dget string_dec "CONFIGFILES" ini) as [cf|] eqn:Ec; cbn [bind]; [|discriminate].
    assert (K : forall k, In k ["path__save_path"; "dumpfolder"] -> exists v, has_entry ini "PROCESS_SPECS" k v).
    { intros k Hk. apply E2, dmem_keys, (dget_in_keys string_dec) in Hk.
      destruct (dget string_dec k ps) as [v|] eqn:Ev; [|congruence]. exists v, ps. auto. }
    destruct (K "path__save_path") as [v1 H1]; [left; reflexivity|].
    destruct (K "dumpfolder") as [v2 H2]; [right; left; reflexivity|].
    assert (S : forall s, In s required_sections -> In s (keys ini)).
    { intros s Hs. apply dmem_keys, E1, Hs. }
    assert (M : forall m, dmem string_dec ("module__" ++ m) cf = true -> exists v, has_entry ini "CONFIGFILES" ("module__" ++ m) v).
    { intros m Hm. apply dmem_keys, (dget_in_keys string_dec) in Hm.
      destruct (dget string_dec ("module__" ++ m) cf) as [v|] eqn:Ev; [|congruence]. exists v, cf. auto. }
    destruct (dget string_dec "processing_cfg_module" cf) as [[m|]|] eqn:Em; [|discriminate|].
    + destruct (dmem string_dec ("module__" ++ m) cf) eqn:E3; [|discriminate]. intros _.
      destruct (M m E3) as [v Hv]. apply (usable_intro ini m v v1 v2 S H1 H2); [|exact Hv].
      left. exists cf. auto.
    + destruct (dmem string_dec "module__processing_cfg" cf) eqn:E3; [|discriminate]. intros _.
      destruct (M "processing_cfg" E3) as [v Hv]. apply (usable_intro ini "processing_cfg" v v1 v2 S H1 H2); [|exact Hv].
      right. split; [|reflexivity]. intros w (cf' & Q1 & Q2). congruence.
  - intros [m v v1 v2 S (ps & Hp & H1) (ps' & Hp' & H2) Hm (cf & Hc & H3)].
    assert (ps' = ps) by congruence; subst ps'.
    assert (E1 : forallb (fun k => dmem string_dec k ini) required_sections = true).
    { apply forallb_forall. intros s Hs. apply dmem_keys, S, Hs. }
    unfold required_sections in E1. rewrite E1. cbn [negb]. unfold get_section. rewrite Hp, Hc. cbn [bind forallb].
    unfold dmem at 1 2. rewrite H1, H2. cbn [andb negb].
    destruct Hm as [(cf' & Hc' & Hm)|[L ->]].
    + assert (cf' = cf) by congruence; subst cf'. rewrite Hm. unfold dmem. rewrite H3. reflexivity.
    + destruct (dget string_dec "processing_cfg_module" cf) as [w|] eqn:Ew.
      * exfalso. apply (L w). exists cf. auto.
      * unfold dmem. change ("module__" ++ "processing_cfg") with "module__processing_cfg" in H3.
        rewrite H3. reflexivity.
Qed.
Print Assumptions C104_accepted_iff_usable.

Theorem C104_errors : forall ini e, check_integrity ini = Err e ->
  (e = TypeError <-> has_entry ini "CONFIGFILES" "processing_cfg_module" None /\
     (forall s, In s required_sections -> In s (keys ini)) /\
     (exists v1 v2, has_entry ini "PROCESS_SPECS" "path__save_path" v1 /\ has_entry ini "PROCESS_SPECS" "dumpfolder" v2)) /\
  (e <> TypeError -> e = AssertionError).
Proof.
  intros ini e. unfold check_integrity.
  destruct (forallb _ _) eqn:E1 at 1; cbn [negb].
  - rewrite forallb_forall in E1. unfold get_section.
    assert (G : forall s, In s required_sections -> exists x, dget string_dec s ini = Some x).
    { intros s Hs. apply E1, dmem_keys, (dget_in_keys string_dec) in Hs.
      destruct (dget string_dec s ini) as [x|]; [exists x; reflexivity|congruence]. }
    destruct (G "PROCESS_SPECS") as [ps Ep]; [cbn; tauto|]. destruct (G "CONFIGFILES") as [cf Ec]; [cbn; tauto|].
    rewrite Ep, Ec. cbn [bind forallb].
    destruct (dmem string_dec "path__save_path" ps) eqn:D1; cbn [andb negb].
    + destruct (dmem string_dec "dumpfolder" ps) eqn:D2; cbn [andb negb].
      * destruct (dget string_dec "processing_cfg_module" cf) as [[m|]|] eqn:Em.
        -- destruct (dmem string_dec ("module__" ++ m) cf); intros Q; inversion Q; subst.
           split; [|auto]. split; [discriminate|]. intros [(cf' & Q1 & Q2) _]. congruence.
        -- intros Q; inversion Q; subst. split; [|congruence]. split; [|auto]. intros _.
           split; [exists cf; auto|]. split; [intros s Hs; apply dmem_keys, E1, Hs|].
           unfold dmem in D1, D2.
           destruct (dget string_dec "path__save_path" ps) as [v1|] eqn:V1; [|discriminate].
           destruct (dget string_dec "dumpfolder" ps) as [v2|] eqn:V2; [|discriminate].
           exists v1, v2. split; exists ps; auto.
        -- destruct (dmem string_dec "module__processing_cfg" cf); intros Q; inversion Q; subst.
           split; [|auto]. split; [discriminate|]. intros [(cf' & Q1 & Q2) _]. congruence.
      * intros Q; inversion Q; subst. split; [|auto]. split; [discriminate|].
        intros (_ & _ & v1 & v2 & _ & (ps' & Q1 & Q2)). unfold dmem in D2. replace ps' with ps in Q2 by congruence.
        rewrite Q2 in D2. discriminate.
    + intros Q; inversion Q; subst. split; [|auto]. split; [discriminate|].
      intros (_ & _ & v1 & v2 & (ps' & Q1 & Q2) & _). unfold dmem in D1. replace ps' with ps in Q2 by congruence.
      rewrite Q2 in D1. discriminate.
  - intros Q; inversion Q; subst. split; [|auto]. split; [discriminate|]. intros (_ & S & _).
    rewrite <- Bool.not_true_iff_false in E1. destruct E1. apply forallb_forall.
    intros s Hs. apply dmem_keys, S, Hs.
Qed.
Print Assumptions C104_errors.

Definition c104_ini : inifile :=
  [("PROCESS_SPECS", [("path__save_path", Some "/tmp"); ("dumpfolder", None)]);
   ("CONFIGFILES", [("processing_cfg_module", Some "mine"); ("module__mine", Some "a.py")]);
   ("fits_kwargs", []); ("least_squares_kwargs", []); ("defdict", []); ("RT1_V", []); ("RT1_SRF", [])].
Example C104_example :
  usable c104_ini /\
  check_integrity (dset string_dec "CONFIGFILES" [("module__processing_cfg", None)] c104_ini) = Ok tt /\
  check_integrity (dset string_dec "CONFIGFILES" [("processing_cfg_module", Some "other"); ("module__processing_cfg", None)] c104_ini)
    = Err AssertionError /\
  check_integrity (dset string_dec "CONFIGFILES" [("processing_cfg_module", None)] c104_ini) = Err TypeError.
Proof. split; [apply C104_accepted_iff_usable; reflexivity|]. repeat split. Qed.

(** ** C105 the types of the values *)
(** keyword arguments of the fit and of the optimizer *)
Theorem C105_arguments : forall pfloat pint (ini : inifile) c sec part kd (inp : section),
  get_config pfloat pint ini None = Ok c ->
  In (sec, part, kd) argument_kinds -> dget string_dec sec ini = Some inp -> NoDup (keys inp) ->
  Forall2 (fun ks kv => fst kv = fst ks /\ argument pfloat pint kd (fst ks) (snd ks) (snd kv)) inp (part c).
Proof.
  intros pfloat pint ini c sec part kd inp E Hi Hs Hn.
  pose proof (proj1 (get_config_none_ok pfloat pint ini c) E) as G. clear E.
  assert (P : exists pp, parse_dict pfloat pint ini pp sec = Ok (part c) /\ pp_int pp = ints kd /\
     pp_float pp = floats kd /\ pp_bool pp = bools kd /\ pp_list pp = []).
  { destruct Hi as [Q|[Q|[]]]; inversion Q; subst.
    - exists lsq_parse_props. split; [exact (G "least_squares_kwargs" c_lsq ltac:(cbn; tauto))|auto].
    - exists fitargs_parse_props. split; [exact (G "fits_kwargs" c_fits ltac:(cbn; tauto))|auto]. }
  destruct P as (pp & P & A1 & A2 & A3 & A4). unfold parse_dict, get_section in P. rewrite Hs in P. cbn [bind] in P.
  apply parse_section_inv in P; [|exact Hn|intros k _ []].
  destruct P as (vals & -> & F). cbn [app]. eapply forall2_impl; [|exact F].
  intros [k s] [k' v] [Q1 Q2]. cbn [fst snd] in *. split; [congruence|].
  eapply parse_value_argument; eassumption.
Qed.
Print Assumptions C105_arguments.

(** an argument that cannot be read as what it has to be makes the configuration unreadable *)
Theorem C105_bad_argument : forall pfloat pint (ini : inifile) sec part kd (inp : section) k s,
  In (sec, part, kd) argument_kinds -> dget string_dec sec ini = Some inp -> NoDup (keys inp) ->
  In (k, s) inp -> (forall v, ~ argument pfloat pint kd k s v) ->
  exists e, get_config pfloat pint ini None = Err e.
Proof.
  intros pfloat pint ini sec part kd inp k s Hi Hs Hn Hk Hb.
  destruct (get_config pfloat pint ini None) as [c|e] eqn:E; [|exists e; reflexivity]. exfalso.
  pose proof (C105_arguments pfloat pint ini c sec part kd inp E Hi Hs Hn) as F. clear - F Hk Hb.
  induction F as [|ks kv l m [_ H] F IH]; [destruct Hk|]. destruct Hk as [->|Hk]; [|auto].
  exact (Hb _ H).
Qed.
Print Assumptions C105_bad_argument.

(** truth values of the process specifications *)
Theorem C105_booleans : forall pfloat pint D strptime resolve name s,
  let read := get_process_specs pfloat pint D strptime resolve [("PROCESS_SPECS", [("bool__" ++ name, Some s)])] in
  (forall b, means s b -> read = Ok [(name, SVal D (VBool b))]) /\
  ((forall b, ~ means s b) -> read = Err ValueError).
Proof.
  intros pfloat pint D strptime resolve name s read.
  assert (R : read = do b <- to_boolean (Some s); Ok [(name, SVal D b)]).
  { unfold read, get_process_specs, get_section. cbn [dget]. destruct (string_dec _ _); [|congruence].
    cbn [bind specs_loop]. unfold parse_spec. rewrite startswith_app.
    change (startswith "datetime__" ("bool__" ++ name)) with false.
    change (startswith "path__" ("bool__" ++ name)) with false. cbn iota.
    change (drop 6 ("bool__" ++ name)) with name.
    destruct (to_boolean (Some s)); reflexivity. }
  split.
  - intros b M. rewrite R. apply to_boolean_iff in M. rewrite M. reflexivity.
  - intros N. rewrite R. destruct (to_boolean (Some s)) as [v|e] eqn:E.
    + apply to_boolean_bool in E. destruct E as (t & b & Q & _ & M). inversion Q; subst. destruct (N b M).
    + unfold to_boolean in E. destruct (inb _ _ _); [discriminate|]. destruct (inb _ _ _); [discriminate|].
      inversion E; reflexivity.
Qed.
Print Assumptions C105_booleans.

(** no text means both *)
Theorem C105_booleans_consistent : forall s, ~ (means s true /\ means s false).
Proof. intros s [H1 H2]. apply to_boolean_iff in H1, H2. congruence. Qed.
Print Assumptions C105_booleans_consistent.

(** lists of truth values and of dates *)
Theorem C105_lists : forall pfloat pint D strptime resolve fields texts name,
  fields <> [] -> Forall comma_free fields -> Forall2 trims fields texts ->
  let read t s := get_process_specs pfloat pint D strptime resolve
                    [("PROCESS_SPECS", [("list__" ++ t ++ name, Some s)])] in
  (forall bs, Forall2 means texts bs ->
     read "bool__" (entry fields) = Ok [(name, SList D (map (fun b => SVal D (VBool b)) bs))]) /\
  (* dates in the default format *)
  (forall ds, contains "fmt=" (entry fields) = false ->
     Forall2 (fun t d => strptime t "%Y-%m-%d %H:%M:%S.%f" = Some d) texts ds ->
     read "datetime__" (entry fields) = Ok [(name, SList D (map (fun d => SDate D d) ds))]) /\
  (* dates in the format written behind the list *)
  (forall pad F fmt ds, Forall (fun f => has_char "=" f = false) fields -> all_space pad ->
     contains "fmt=" F = false -> trims F fmt ->
     Forall2 (fun t d => strptime t fmt = Some d) texts ds ->
     read "datetime__" (entry fields ++ pad ++ "fmt=" ++ F) = Ok [(name, SList D (map (fun d => SDate D d) ds))]).
Proof.
  intros pfloat pint D strptime resolve fields texts name Hn Hc Ht read.
  assert (Hb : startswith "[" (entry fields) && (endswith "]" (entry fields) || contains "fmt=" (entry fields)) = true).
  { assert (B := bracket_test (join_char "," fields)). unfold entry. apply andb_true_iff in B. destruct B as [B1 B2].
    rewrite B1, B2. reflexivity. }
  split; [|split].
  - intros bs F. unfold read. rewrite read_list by (unfold entry; discriminate).
    unfold parse_list_spec. rewrite Hb, startswith_app.
    rewrite (convert_list_entry D _ fields texts (map (fun b => SVal D (VBool b)) bs) Hn Hc Ht); [reflexivity|].
    eapply forall2_map_r; [|exact F]. intros t b M. apply to_boolean_iff in M. rewrite M. reflexivity.
  - intros ds Hf F. unfold read. rewrite read_list by (unfold entry; discriminate).
    unfold parse_list_spec. rewrite Hb, startswith_app.
    change (startswith "bool__" ("datetime__" ++ name)) with false.
    change (startswith "float__" ("datetime__" ++ name)) with false.
    change (startswith "int__" ("datetime__" ++ name)) with false. cbn iota.
    unfold split_fmt. rewrite (split_first_none _ _ Hf).
    replace (strip (entry fields)) with (entry fields) by (symmetry; apply strip_brackets).
    rewrite (convert_list_entry D _ fields texts (map (fun d => SDate D d) ds) Hn Hc Ht); [reflexivity|].
    eapply forall2_map_r; [|exact F]. intros t d M. unfold to_dt. cbn beta in M. rewrite M. reflexivity.
  - intros pad F fmt ds He Hp Hf Htr G. unfold read. rewrite read_list by (unfold entry; discriminate).
    unfold parse_list_spec.
    assert (Hs : startswith "[" (entry fields ++ pad ++ "fmt=" ++ F) &&
       (endswith "]" (entry fields ++ pad ++ "fmt=" ++ F) || contains "fmt=" (entry fields ++ pad ++ "fmt=" ++ F)) = true).
    { rewrite andb_true_iff. split.
      - unfold entry. rewrite !sapp_assoc. apply startswith_app.
      - rewrite <- (sapp_assoc (entry fields)), contains_app. apply orb_true_r. }
    rewrite Hs, startswith_app.
    change (startswith "bool__" ("datetime__" ++ name)) with false.
    change (startswith "float__" ("datetime__" ++ name)) with false.
    change (startswith "int__" ("datetime__" ++ name)) with false. cbn iota.
    rewrite (split_fmt_some (entry fields) pad F fmt (entry_eqsign fields He) Hp (entry_outer fields) Hf Htr).
    rewrite (convert_list_entry D _ fields texts (map (fun d => SDate D d) ds) Hn Hc Ht); [reflexivity|].
    eapply forall2_map_r; [|exact G]. intros t d M. unfold to_dt. cbn beta in M. rewrite M. reflexivity.
Qed.
Print Assumptions C105_lists.

Example C105_example :
  means "YeS" true /\ means "oFF" false /\ (forall b, ~ means "wahr" b) /\
  argument (fun _ => None) (fun _ => Some 2%Z) (mkkinds ["verbose"] [] ["sig0"; "dB"; "int_Q"]) "verbose" (Some "2") (VNum (inject_Z 2)) /\
  (forall v, ~ argument (fun _ => None) (fun _ => None) (mkkinds ["verbose"] [] ["sig0"; "dB"; "int_Q"]) "dB" (Some "10") v) /\
  get_process_specs (fun _ => None) (fun _ => None) (string * string) (fun t f => Some (t, f)) (fun s => s)
    [("PROCESS_SPECS", [("list__datetime__dates", Some "[2020-01-01 , 2021-01-01] fmt= %Y-%m-%d")])] =
  Ok [("dates", SList _ [SDate _ ("2020-01-01", "%Y-%m-%d"); SDate _ ("2021-01-01", "%Y-%m-%d")])].
Proof.
  split; [apply to_boolean_iff; reflexivity|]. split; [apply to_boolean_iff; reflexivity|].
  assert (N : forall b, ~ means "wahr" b) by (intros b H; apply to_boolean_iff in H; discriminate).
  split; [exact N|]. split; [apply arg_int; [left|]; reflexivity|]. split; [|reflexivity].
  intros v H. inversion H; subst.
  - cbn in *; intuition discriminate.
  - cbn in *; tauto.
  - match goal with M : means _ _ |- _ => apply to_boolean_iff in M; discriminate end.
  - match goal with M : ~ In _ _ |- _ => apply M; cbn; tauto end.
  - match goal with M : ~ In _ _ |- _ => apply M; cbn; tauto end.
Qed.
