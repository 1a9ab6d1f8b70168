(** Setup of a processing run (C65, C66, C100) *)
From Coq Require Import String Ascii Arith Bool Lia List.
From Verif Require Import Base Base_Proofs Prc_Model Prc_Spec Prc_Proofs.
Import ListNotations.
Local Open Scope list_scope.

(** ** C65: override_config(override=False) *)
(** In the sections that are given, exactly the given keys change. *)
Theorem C65_given_sections : forall ini cur kw c, wf kw -> override_config ini cur false kw = Ok c ->
  forall s k, In s (keys kw) -> value c s k = match value kw s k with Some v => Some v | None => value cur s k end.
Proof.
  intros ini cur kw c W H s k Hs. rewrite (override_value ini cur false kw c W H). unfold value at 2.
  destruct (dget string_dec s kw) as [d|] eqn:E; [reflexivity|]. apply (dget_in_keys string_dec) in Hs. congruence.
Qed.
Print Assumptions C65_given_sections.

(** Everything else is kept iff every section with earlier values is given
    again (all other sections are dropped). *)
Theorem C65_kept_iff : forall ini cur kw c, wf kw -> override_config ini cur false kw = Ok c ->
  (updated cur kw c <-> forall s k, value cur s k <> None -> In s (keys kw)).
Proof.
  intros ini cur kw c W H. pose proof (override_value ini cur false kw c W H) as V. split.
  - intros U s k Hn. specialize (U s k). rewrite V in U. destruct (in_dec string_dec s (keys kw)) as [|N]; [assumption|]. exfalso.
    assert (N' : dget string_dec s kw = None) by (apply dget_none; exact N). assert (Vk : value kw s k = None) by (unfold value; rewrite N'; reflexivity). rewrite N', Vk in U. apply Hn. symmetry. exact U.
  - intros Hk s k. rewrite V. unfold value at 2. destruct (dget string_dec s kw) as [d|] eqn:E; [reflexivity|].
    destruct (value cur s k) eqn:Ev; [|reflexivity]. exfalso. assert (Hs : In s (keys kw)) by (apply (Hk s k); congruence). apply (dget_in_keys string_dec) in Hs. congruence.
Qed.
Print Assumptions C65_kept_iff.

Example C65_example : let ini := [("PROCESS_SPECS", []); ("defdict", [])]%string in
  override_config ini [("PROCESS_SPECS", [("dumpfolder", "a"); ("x", "1")])]%string false [("PROCESS_SPECS", [("dumpfolder", "b")])]%string
    = Ok [("PROCESS_SPECS", [("dumpfolder", "b"); ("x", "1")])]%string /\
  override_config ini [] false [("nosuch", [])]%string = Err AssertionError.
Proof. split; reflexivity. Qed.

(** An earlier override of another section is lost. *)
Theorem C65_refuted : exists ini cur kw c s k, wf cur /\ wf kw /\ override_config ini [] false cur = Ok cur /\
  override_config ini cur false kw = Ok c /\ ~ In s (keys kw) /\ value cur s k = Some "fold"%string /\ value c s k = None.
Proof.
  exists [("PROCESS_SPECS", []); ("defdict", [])]%string, [("PROCESS_SPECS", [("dumpfolder", "fold")])]%string, [("defdict", [("omega", "0.3")])]%string.
  eexists. exists "PROCESS_SPECS"%string, "dumpfolder"%string.
  assert (W : forall s d, wf [(s, [d])]).
  { intros s [k v]. split; [repeat constructor; intros []|]. intros s' d' [E|[]]. injection E as _ <-. repeat constructor. intros []. }
  split; [apply W|]. split; [apply W|]. split; [reflexivity|]. split; [reflexivity|]. split; [cbn; intuition discriminate|]. split; reflexivity.
Qed.
Print Assumptions C65_refuted.

(** With override=True exactly the given values remain. *)
Theorem C65_override_replaces : forall ini cur kw c, wf kw -> override_config ini cur true kw = Ok c -> updated [] kw c.
Proof.
  intros ini cur kw c W H s k. rewrite (override_value ini cur true kw c W H). unfold value. destruct (dget string_dec s kw) as [d|]; [|reflexivity]. destruct (dget string_dec k d); reflexivity.
Qed.
Print Assumptions C65_override_replaces.

(** ** C66: removing results *)
Theorem C66_confirmation : forall a1 a2,
  (confirm_input ["REMOVE"%string] a1 a2 = Callback "REMOVE" <-> typed a1 "REMOVE" /\ yes a2) /\
  (confirm_input ["REMOVE"%string] a1 a2 = Continue <-> yes a1) /\
  (confirm_input ["REMOVE"%string] a1 a2 = Exit <-> ~ yes a1 /\ ~ (typed a1 "REMOVE" /\ yes a2)).
Proof.
  intros a1 a2. destruct (confirm_spec a1 a2) as (H1 & H2 & H3). split; [exact H1|]. split; [exact H2|].
  rewrite <- H1, <- H2. destruct (confirm_input ["REMOVE"%string] a1 a2) as [| |k]; split; intros H; try discriminate; try tauto.
  - split; discriminate.
  - exfalso. apply (proj2 H). rewrite (H3 k eq_refl). reflexivity.
Qed.
Print Assumptions C66_confirmation.

Example C66_example : confirm_input ["REMOVE"%string] "rEmove" "yes" = Callback "REMOVE" /\ confirm_input ["REMOVE"%string] "REMOVE" "yess" = Exit /\
  confirm_input ["REMOVE"%string] "" "y" = Exit /\ confirm_input ["REMOVE"%string] "y" "" = Continue /\ typed "rEmove" "REMOVE" /\ yes "yes".
Proof.
  repeat split; try reflexivity.
  - apply (upper_typed "REMOVE"); reflexivity.
  - right. apply (upper_typed "YES"); reflexivity.
Qed.

Section Setup.
Context {P : Type} (peq : forall x y : P, {x = y} + {x <> y}) (path_of : config -> P).
Lemma copy_other main ini cfg kw name p d p' : p' <> p -> dget peq p' (fst (copy_cfg peq main ini cfg kw name p d)) = dget peq p' d.
Proof.
  intros N. unfold copy_cfg. set (fo := match dget peq p d with Some x => x | None => mkfolder [] [] end).
  set (d' := if main then _ else d). assert (E : dget peq p' d' = dget peq p' d).
  { unfold d'. destruct main; [|reflexivity]. destruct (dget string_dec name (f_cfg fo)), kw; try reflexivity; apply dget_dset_other; exact N. }
  destruct (dget peq p d') as [x|]; [destruct (dget string_dec name (f_cfg x))|]; exact E.
Qed.
Lemma copy_same ini cfg kw name p d fo : dget peq p d = Some fo -> exists fo', dget peq p (fst (copy_cfg peq true ini cfg kw name p d)) = Some fo' /\
  f_other fo' = f_other fo /\ (forall n, n <> name -> dget string_dec n (f_cfg fo') = dget string_dec n (f_cfg fo)) /\
  snd (copy_cfg peq true ini cfg kw name p d) = Using (match dget string_dec name (f_cfg fo), kw with Some c, [] => c | None, [] => ini | _, _ => cfg end).
Proof.
  intros E. unfold copy_cfg. rewrite E. destruct (dget string_dec name (f_cfg fo)) as [c|] eqn:Ec, kw as [|s kw]; cbv zeta.
  - rewrite E, Ec. exists fo. auto.
  - rewrite dget_dset_same. cbn [f_cfg]. rewrite dget_dset_same. eexists. cbn [fst snd]. rewrite dget_dset_same. split; [reflexivity|]. cbn [f_other f_cfg]. split; [reflexivity|]. split; [|reflexivity]. intros n N. apply dget_dset_other. exact N.
  - rewrite dget_dset_same. cbn [f_cfg]. rewrite dget_dset_same. eexists. cbn [fst snd]. rewrite dget_dset_same. split; [reflexivity|]. cbn [f_other f_cfg]. split; [reflexivity|]. split; [|reflexivity]. intros n N. apply dget_dset_other. exact N.
  - rewrite dget_dset_same. cbn [f_cfg]. rewrite dget_dset_same. eexists. cbn [fst snd]. rewrite dget_dset_same. split; [reflexivity|]. cbn [f_other f_cfg]. split; [reflexivity|]. split; [|reflexivity]. intros n N. apply dget_dset_other. exact N.
Qed.
End Setup.

(** Existing files (all but the config-file's own copy) survive the setup
    unless the user typed REMOVE and confirmed; then the folder is emptied; no
    other folder is ever touched; an abort changes nothing. *)
Theorem C66_setup : forall P (peq : forall x y : P, {x = y} + {x <> y}) path_of autocontinue copy ini name kw a1 a2 (d : fs P) cfg,
  NoDup (keys d) -> apply_kwargs ini kw = Ok cfg -> let p := path_of cfg in
  let '(d', o) := setup peq path_of true autocontinue copy ini name kw a1 a2 d in
  let removing := autocontinue = false /\ typed a1 "REMOVE" /\ yes a2 in
  (forall p', p' <> p -> dget peq p' d' = dget peq p' d) /\
  (forall fo, dget peq p d = Some fo ->
     (~ removing -> exists fo', dget peq p d' = Some fo' /\ f_other fo' = f_other fo /\ forall n, n <> name -> dget string_dec n (f_cfg fo') = dget string_dec n (f_cfg fo)) /\
     (removing -> exists fo', dget peq p d' = Some fo' /\ f_other fo' = [] /\ forall n, n <> name -> dget string_dec n (f_cfg fo') = None) /\
     (o = Aborted <-> autocontinue = false /\ ~ yes a1 /\ ~ (typed a1 "REMOVE" /\ yes a2))) /\
  (dget peq p d = None -> o <> Aborted) /\
  (o = Aborted -> d' = d).
Proof.
  intros P peq path_of ac copy ini name kw a1 a2 d cfg ND Ha p. unfold setup. rewrite Ha. fold p.
  set (go := fun d0 : fs P => if copy then copy_cfg peq true ini cfg kw name p d0 else (d0, Using cfg)).
  set (make := fun d0 : fs P => match dget peq p d0 with Some _ => d0 | None => dset peq p (mkfolder [] []) d0 end).
  change (let '(d', o) := if negb ac && match dget peq p d with Some _ => true | None => false end
            then match confirm_input ["REMOVE"%string] a1 a2 with Exit => (d, Aborted) | Continue => go (make d) | Callback _ => go (make (ddel peq p d)) end else go (make d) in
    let removing := ac = false /\ typed a1 "REMOVE" /\ yes a2 in
    (forall p', p' <> p -> dget peq p' d' = dget peq p' d) /\
    (forall fo, dget peq p d = Some fo ->
     (~ removing -> exists fo', dget peq p d' = Some fo' /\ f_other fo' = f_other fo /\ forall n, n <> name -> dget string_dec n (f_cfg fo') = dget string_dec n (f_cfg fo)) /\
     (removing -> exists fo', dget peq p d' = Some fo' /\ f_other fo' = [] /\ forall n, n <> name -> dget string_dec n (f_cfg fo') = None) /\
     (o = Aborted <-> ac = false /\ ~ yes a1 /\ ~ (typed a1 "REMOVE" /\ yes a2))) /\
    (dget peq p d = None -> o <> Aborted) /\ (o = Aborted -> d' = d)).
  assert (Go : forall d0, (forall p', p' <> p -> dget peq p' (fst (go d0)) = dget peq p' d0) /\
     (forall fo, dget peq p d0 = Some fo -> snd (go d0) <> Aborted /\ exists fo', dget peq p (fst (go d0)) = Some fo' /\ f_other fo' = f_other fo /\ forall n, n <> name -> dget string_dec n (f_cfg fo') = dget string_dec n (f_cfg fo))).
  { intros d0. unfold go. destruct copy; [|split; [reflexivity|intros fo E; split; [discriminate|exists fo; auto]]]. split.
    - intros p' N. apply copy_other. exact N.
    - intros fo E. destruct (copy_same peq ini cfg kw name p d0 fo E) as (fo' & E1 & E2 & E3 & E4). rewrite E4. split; [discriminate|]. exists fo'. auto. }
  assert (Mk : forall d0, (forall p', p' <> p -> dget peq p' (make d0) = dget peq p' d0) /\ (forall fo, dget peq p d0 = Some fo -> make d0 = d0) /\ (dget peq p d0 = None -> dget peq p (make d0) = Some (mkfolder [] []))).
  { intros d0. unfold make. destruct (dget peq p d0); split; try tauto; try (split; [reflexivity|discriminate]). - intros p' N. apply dget_dset_other. exact N. - split; [discriminate|]. intros _. apply dget_dset_same. }
  assert (GoMk : let '(d', o) := go (make d) in (forall p', p' <> p -> dget peq p' d' = dget peq p' d) /\ o <> Aborted /\ forall fo, dget peq p d = Some fo -> exists fo', dget peq p d' = Some fo' /\ f_other fo' = f_other fo /\ forall n, n <> name -> dget string_dec n (f_cfg fo') = dget string_dec n (f_cfg fo)).
  { destruct (Go (make d)) as [G1 G2]. destruct (Mk d) as (M1 & M2 & M3). destruct (go (make d)) as [d' o]. cbn [fst snd] in *. split; [|split].
    - intros p' N. rewrite G1 by exact N. apply M1. exact N.
    - destruct (dget peq p d) as [fo|] eqn:E; [destruct (G2 fo) as [G _]; [rewrite (M2 fo eq_refl); exact E|exact G]|destruct (G2 _ (M3 eq_refl)) as [G _]; exact G].
    - intros fo E. apply (G2 fo). rewrite (M2 fo E). exact E. }
  destruct (negb ac && match dget peq p d with Some _ => true | None => false end) eqn:Ecase.
  - apply andb_true_iff in Ecase. destruct Ecase as [Eac Eex]. apply negb_true_iff in Eac. subst ac.
    destruct (C66_confirmation a1 a2) as (C1 & C2 & C3). destruct (confirm_spec a1 a2) as (_ & _ & C4).
    destruct (dget peq p d) as [fo0|] eqn:Efo; [|discriminate].
    destruct (confirm_input ["REMOVE"%string] a1 a2) as [| |k] eqn:Ecf.
    + destruct (proj1 C3 eq_refl) as [C5 C6]. split; [reflexivity|]. split; [|split; [discriminate|reflexivity]]. intros fo E. injection E as <-. split; [|split].
      * intros _. exists fo0. auto.
      * intros (_ & R). tauto.
      * tauto.
    + destruct (go (make d)) as [d' o]. destruct GoMk as (G1 & G2 & G3). assert (NR : ~ (typed a1 "REMOVE" /\ yes a2)) by (intros R; apply C1 in R; discriminate). pose proof (proj1 C2 eq_refl) as Y.
      split; [exact G1|]. split; [|split; [discriminate|congruence]]. intros fo E. split; [intros _; apply G3; exact E|]. split; [tauto|]. split; [congruence|tauto].
    + rewrite (C4 k eq_refl) in *. pose proof (proj1 C1 eq_refl) as R. destruct (Go (make (ddel peq p d))) as [G1 G2]. destruct (Mk (ddel peq p d)) as (M1 & M2 & M3).
      pose proof (M3 (dget_ddel_same peq p d ND)) as M4. destruct (G2 _ M4) as (G3 & fo' & G4 & G5 & G6). destruct (go (make (ddel peq p d))) as [d' o]. cbn [fst snd] in *. split; [|split; [|split]].
      * intros p' N. rewrite G1, M1 by exact N. apply dget_ddel_other. exact N.
      * intros fo E. split; [tauto|]. split; [intros _; exists fo'; split; [exact G4|split; [exact G5|exact G6]]|]. split; [congruence|tauto].
      * discriminate.
      * congruence.
  - destruct (go (make d)) as [d' o]. destruct GoMk as (G1 & G2 & G3). split; [exact G1|]. split; [|split; [intros _; exact G2|congruence]]. intros fo E. rewrite E, andb_true_r in Ecase. apply negb_false_iff in Ecase. subst ac.
    split; [intros _; apply G3; exact E|]. split; [intros [X _]; discriminate|]. split; [congruence|intros [X _]; discriminate].
Qed.
Print Assumptions C66_setup.

(** worker processes change nothing *)
Theorem C66_workers : forall P (peq : forall x y : P, {x = y} + {x <> y}) path_of autocontinue copy ini name kw a1 a2 (d : fs P),
  fst (setup peq path_of false autocontinue copy ini name kw a1 a2 d) = d.
Proof.
  intros. unfold setup. destruct (apply_kwargs ini kw) as [cfg|e]; [|reflexivity]. destruct copy; [|reflexivity]. unfold copy_cfg. destruct (dget peq (path_of cfg) d) as [x|]; [destruct (dget string_dec name (f_cfg x))|]; reflexivity.
Qed.
Print Assumptions C66_workers.

(** a world with one dumpfolder per value of "dumpfolder" *)
Definition path0 (c : config) : string := match value c "PROCESS_SPECS" "dumpfolder" with Some v => v | None => "" end.
Definition ini0 : config := [("PROCESS_SPECS", [("dumpfolder", "dump")]); ("defdict", [("omega", "0.1")])]%string.

Example C66_setup_example : let d := [("dump"%string, mkfolder [("old.ini", ini0)]%string ["results/a.h5"%string]); ("x"%string, mkfolder [] ["b"%string])] in
  setup string_dec path0 true false true ini0 "cfg.ini" [] "remove" "Y" d = ([("x"%string, mkfolder [] ["b"%string]); ("dump"%string, mkfolder [("cfg.ini", ini0)]%string [])], Using ini0) /\
  setup string_dec path0 true false true ini0 "cfg.ini" [] "remove" "no" d = (d, Aborted) /\
  fst (setup string_dec path0 true true true ini0 "cfg.ini" [] "" "" d) = [("dump"%string, mkfolder [("old.ini", ini0); ("cfg.ini", ini0)]%string ["results/a.h5"%string]); ("x"%string, mkfolder [] ["b"%string])].
Proof. repeat split; reflexivity. Qed.

(** ** C100: the configuration in effect *)
(** The configuration that is used is the config-file with the overrides, if
    the files are not copied, if there are overrides, or if the dumpfolder
    does not contain a copy of the file yet (or has been removed). *)
Theorem C100_configuration : forall P (peq : forall x y : P, {x = y} + {x <> y}) path_of autocontinue copy ini name kw a1 a2 (d : fs P) d' c,
  NoDup (keys d) -> wf kw ->
  setup peq path_of true autocontinue copy ini name kw a1 a2 d = (d', Using c) ->
  (copy = false \/ kw <> [] \/
   (forall p fo, dget peq p d = Some fo -> dget string_dec name (f_cfg fo) = None) \/
   (autocontinue = false /\ typed a1 "REMOVE" /\ yes a2)) ->
  updated ini kw c.
Proof.
  intros P peq path_of ac copy ini name kw a1 a2 d d' c ND W H Hc. unfold setup in H. destruct (apply_kwargs ini kw) as [cfg|e] eqn:Ea; [|discriminate].
  pose proof (apply_value ini kw cfg W Ea) as U. set (p := path_of cfg) in *.
  assert (G : forall d0, (dget peq p d0 = None \/ exists fo, dget peq p d0 = Some fo /\ (kw = [] -> copy = true -> dget string_dec name (f_cfg fo) = None)) ->
     (if copy then copy_cfg peq true ini cfg kw name p (match dget peq p d0 with Some _ => d0 | None => dset peq p (mkfolder [] []) d0 end)
      else (match dget peq p d0 with Some _ => d0 | None => dset peq p (mkfolder [] []) d0 end, Using cfg)) = (d', Using c) -> updated ini kw c).
  { intros d0 Hd E. destruct copy; [|injection E as _ <-; exact U].
    assert (E0 : exists fo, dget peq p (match dget peq p d0 with Some _ => d0 | None => dset peq p (mkfolder [] []) d0 end) = Some fo /\ (kw = [] -> dget string_dec name (f_cfg fo) = None)).
    { destruct Hd as [Hd|(fo & Hd & Hk)]; rewrite Hd; [rewrite dget_dset_same; eexists; split; [reflexivity|reflexivity]|]. exists fo. auto. }
    destruct E0 as (fo & E0 & Hk). destruct (copy_same peq ini cfg kw name p _ fo E0) as (_ & _ & _ & _ & E4). pose proof (eq_trans (eq_sym E4) (f_equal snd E)) as E5. cbn [snd] in E5. injection E5 as <-.
    destruct kw as [|s kw]; [|destruct (dget string_dec name (f_cfg fo)); exact U]. rewrite (Hk eq_refl). cbn in Ea. injection Ea as <-. exact U. }
  assert (K : ~ (ac = false /\ typed a1 "REMOVE" /\ yes a2) -> dget peq p d = None \/ exists fo, dget peq p d = Some fo /\ (kw = [] -> copy = true -> dget string_dec name (f_cfg fo) = None)).
  { intros NR. destruct (dget peq p d) as [fo|] eqn:E; [|left; reflexivity]. right. exists fo. split; [reflexivity|]. intros Hk Hcp. destruct Hc as [X|[X|[X|X]]]; [congruence|congruence|apply (X p fo E)|tauto]. }
  cbv zeta in H. destruct (negb ac && match dget peq p d with Some _ => true | None => false end) eqn:Ecase.
  - apply andb_true_iff in Ecase. destruct Ecase as [Eac Eex]. apply negb_true_iff in Eac. destruct (C66_confirmation a1 a2) as (C1 & C2 & C3).
    destruct (confirm_input ["REMOVE"%string] a1 a2) as [| |k] eqn:Ecf; [discriminate| |].
    + apply (G d); [|exact H]. apply K. intros (_ & R). apply C1 in R. discriminate.
    + apply (G (ddel peq p d)); [|exact H]. left. apply dget_ddel_same. exact ND.
  - destruct (dget peq p d) as [fo|] eqn:E.
    + rewrite andb_true_r in Ecase. apply negb_false_iff in Ecase. apply (G d); [|rewrite E; exact H]. rewrite E. apply K. intros [X _]. congruence.
    + apply (G d); [left; exact E|]. rewrite E. exact H.
Qed.
Print Assumptions C100_configuration.

(** In the remaining case the copy found in the folder is used, whatever it contains. *)
Theorem C100_existing_copy : forall P (peq : forall x y : P, {x = y} + {x <> y}) path_of ini name a1 a2 (d : fs P) fo c,
  dget peq (path_of ini) d = Some fo -> dget string_dec name (f_cfg fo) = Some c ->
  setup peq path_of true true true ini name [] a1 a2 d = (d, Using c).
Proof. intros P peq path_of ini name a1 a2 d fo c H1 H2. unfold setup, apply_kwargs, copy_cfg. cbn [fold_left negb andb]. rewrite H1, H1, H2, H1, H2. reflexivity. Qed.
Print Assumptions C100_existing_copy.

Example C100_example : snd (setup string_dec path0 true true true ini0 "cfg.ini" [("defdict", [("omega", "0.5")])]%string "" "" []) =
  Using [("PROCESS_SPECS", [("dumpfolder", "dump")]); ("defdict", [("omega", "0.5")])]%string.
Proof. reflexivity. Qed.

(** Overrides of an earlier run stay in effect after they have been withdrawn,
    and changes of the config-file are ignored. *)
Theorem C100_refuted : exists ini kw (d1 d2 : fs string) c1 c2,
  setup string_dec path0 true true true ini "cfg.ini" kw "" "" [] = (d1, Using c1) /\
  (exists kw2, override_config ini kw true [] = Ok kw2 /\ kw2 = [] /\
   setup string_dec path0 true true true ini "cfg.ini" kw2 "" "" d1 = (d2, Using c2) /\ ~ updated ini kw2 c2).
Proof.
  exists ini0, [("defdict", [("omega", "0.5")])]%string. do 4 eexists. split; [reflexivity|]. eexists. split; [reflexivity|]. split; [reflexivity|]. split; [reflexivity|].
  intros H. specialize (H "defdict" "omega")%string. discriminate.
Qed.
Print Assumptions C100_refuted.

(** "NO files will be overwritten": with overrides the existing copy of the config-file is. *)
Theorem C100_overwritten_refuted : exists ini kw (d d' : fs string) c fo fo',
  setup string_dec path0 true true true ini "cfg.ini" kw "" "" d = (d', Using c) /\
  dget string_dec "dump"%string d = Some fo /\ dget string_dec "dump"%string d' = Some fo' /\
  dget string_dec "cfg.ini"%string (f_cfg fo) = Some ini0 /\ dget string_dec "cfg.ini"%string (f_cfg fo') <> Some ini0.
Proof.
  exists ini0, [("defdict", [("omega", "0.5")])]%string, [("dump"%string, mkfolder [("cfg.ini"%string, ini0)] [])]. do 4 eexists. split; [reflexivity|]. split; [reflexivity|]. split; [reflexivity|]. split; [reflexivity|]. discriminate.
Qed.
Print Assumptions C100_overwritten_refuted.
