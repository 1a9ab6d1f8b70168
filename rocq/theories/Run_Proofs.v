(** Lemmas for C130-C136 *)
From Coq Require Import String Ascii Arith Bool List Lia.
From Verif Require Import Base Base_Proofs Prc_Model Prc_Spec Prc_Proofs Run_Model.
Import ListNotations.
Local Open Scope list_scope.

Lemma keys_ddel_incl {K V} (keq : forall x y : K, {x = y} + {x <> y}) k (d : dict K V) x : In x (keys (ddel keq k d)) -> In x (keys d).
Proof. induction d as [|[k' v] d IH]; cbn; [tauto|]. destruct (keq k k'); cbn; [tauto|]. intros [H|H]; auto. Qed.
Lemma NoDup_keys_ddel {K V} (keq : forall x y : K, {x = y} + {x <> y}) k (d : dict K V) : NoDup (keys d) -> NoDup (keys (ddel keq k d)).
Proof.
  induction d as [|[k' v] d IH]; cbn; intros H; [constructor|]. inversion H as [|? ? N H']; subst. destruct (keq k k'); cbn; [exact H'|].
  constructor; [intros I; apply N; apply (keys_ddel_incl keq k); exact I|apply IH; exact H'].
Qed.

Section S.
Context {P : Type} (peq : forall x y : P, {x = y} + {x <> y}) (path_of : config -> P) (copy : bool) (ini : config) (name : string).

Lemma setup_nodup main ac kw a1 a2 (d : fs P) : NoDup (keys d) -> NoDup (keys (fst (setup peq path_of main ac copy ini name kw a1 a2 d))).
Proof.
  intros ND. unfold setup. destruct (apply_kwargs ini kw) as [cfg|e]; [|exact ND]. cbv zeta.
  assert (G : forall d0 : fs P, NoDup (keys d0) -> NoDup (keys (fst (if copy then copy_cfg peq main ini cfg kw name (path_of cfg) d0 else (d0, Using cfg))))).
  { intros d0 N0. destruct copy; [|exact N0]. unfold copy_cfg. set (fo := match dget peq (path_of cfg) d0 with Some x => x | None => mkfolder [] [] end).
    set (d' := if main then _ else d0). assert (N' : NoDup (keys d')).
    { unfold d'. destruct main; [|exact N0]. destruct (dget string_dec name (f_cfg fo)), kw; try exact N0; apply NoDup_keys_dset; exact N0. }
    destruct (dget peq (path_of cfg) d') as [x|]; [destruct (dget string_dec name (f_cfg x))|]; exact N'. }
  assert (M : forall d0 : fs P, NoDup (keys d0) -> NoDup (keys (match dget peq (path_of cfg) d0 with Some _ => d0 | None => dset peq (path_of cfg) (mkfolder [] []) d0 end))).
  { intros d0 N0. destruct (dget peq (path_of cfg) d0); [exact N0|apply NoDup_keys_dset; exact N0]. }
  destruct main; [|apply G; exact ND].
  destruct (negb ac && match dget peq (path_of cfg) d with Some _ => true | None => false end); [|apply G, M; exact ND].
  destruct (confirm_input ["REMOVE"%string] a1 a2); [exact ND|apply G, M; exact ND|apply G, M, NoDup_keys_ddel; exact ND].
Qed.

(** no question is asked with autocontinue *)
Lemma setup_auto_answers kw a1 a2 b1 b2 (d : fs P) : setup peq path_of true true copy ini name kw a1 a2 d = setup peq path_of true true copy ini name kw b1 b2 d.
Proof. reflexivity. Qed.
End S.

(** ** wf of overrides *)
Lemma dupdate_nodup (a b : dict string string) : NoDup (keys a) -> NoDup (keys (dupdate string_dec a b)).
Proof. unfold dupdate. revert a. induction b as [|[k v] b IH]; cbn; intros a H; [exact H|]. apply IH. apply NoDup_keys_dset. exact H. Qed.

Lemma override_final ini kw n : in_config "PROCESS_SPECS" ini = true ->
  override_config ini kw false [("PROCESS_SPECS", [("finalout_name", n)])]%string =
  Ok [("PROCESS_SPECS"%string, dset string_dec "finalout_name"%string n (section "PROCESS_SPECS" kw))].
Proof. intros H. unfold override_config. cbn [mapM fst snd]. rewrite H. reflexivity. Qed.

Lemma override_final_err ini kw n : in_config "PROCESS_SPECS" ini = false ->
  override_config ini kw false [("PROCESS_SPECS", [("finalout_name", n)])]%string = Err AssertionError.
Proof. intros H. unfold override_config. cbn [mapM fst snd]. rewrite H. reflexivity. Qed.

Lemma section_nodup kw s : wf kw -> NoDup (keys (section s kw)).
Proof. intros [_ W]. unfold section. destruct (dget string_dec s kw) as [d|] eqn:E; [|constructor]. apply (W s). apply (dget_some_in string_dec). exact E. Qed.

Lemma override_final_wf kw n : wf kw -> wf [("PROCESS_SPECS"%string, dset string_dec "finalout_name"%string n (section "PROCESS_SPECS" kw))].
Proof.
  intros W. split; [repeat constructor; cbn; tauto|]. intros s d [H|[]]. injection H as <- <-. apply NoDup_keys_dset, section_nodup, W.
Qed.

Lemma override_final_value kw n : value [("PROCESS_SPECS"%string, dset string_dec "finalout_name"%string n (section "PROCESS_SPECS" kw))] "PROCESS_SPECS" "finalout_name" = Some n.
Proof. unfold value. cbn [dget]. destruct (string_dec "PROCESS_SPECS" "PROCESS_SPECS") as [_|N]; [apply dget_dset_same|congruence]. Qed.

(** ** the parts of the state that a run leaves alone *)
Section R.
Context {P : Type} (peq : forall x y : P, {x = y} + {x <> y}) (path_of : config -> P) (copy : bool) (ini : config) (name : string).

Lemma setup_call_state a1 a2 late (st : rtp P) st1 r : setup_call peq path_of copy ini name a1 a2 late st = (st1, r) ->
  p_auto st1 = p_auto st /\ p_kw st1 = p_kw st /\ p_log st1 = p_log st /\ p_nq st1 = p_nq st /\
  (NoDup (keys (p_disc st)) -> NoDup (keys (p_disc st1))).
Proof.
  unfold setup_call. destruct (setup peq path_of true (p_auto st) copy ini name (p_kw st) a1 a2 (p_disc st)) as [d o] eqn:E. intros H. injection H as <- _.
  cbn. repeat split. intros ND. pose proof (setup_nodup peq path_of copy ini name true (p_auto st) (p_kw st) a1 a2 _ ND) as X. rewrite E in X. exact X.
Qed.

Lemma finally_state {A} level bound (st : rtp P) (r : res A) st' r' : finally_ level bound st r = (st', r') ->
  p_auto st' = p_auto st /\ p_kw st' = p_kw st /\ p_disc st' = p_disc st /\ p_nq st' = p_nq st /\
  l_warn (p_log st') = l_warn (p_log st) /\ l_level (p_log st') = l_level (p_log st) /\ l_capture (p_log st') = false.
Proof. unfold finally_. destruct level as [lv|]; [destruct bound|]; intros H; injection H as <- <-; repeat split. Qed.

Lemma processing_state level a1 a2 late body (st st' : rtp P) r : run_processing peq path_of copy ini name level a1 a2 late body st = (st', r) ->
  p_auto st' = p_auto st /\ p_kw st' = p_kw st /\ (NoDup (keys (p_disc st)) -> NoDup (keys (p_disc st'))).
Proof.
  unfold run_processing. destruct (setup_call peq path_of copy ini name a1 a2 late st) as [st1 [c|e]] eqn:E; destruct (setup_call_state _ _ _ _ _ _ E) as (S1 & S2 & S3 & S4 & S5).
  - destruct level as [lv|]; intros H; apply finally_state in H; destruct H as (F1 & F2 & F3 & _); rewrite F1, F2, F3; cbn; auto.
  - intros H. apply finally_state in H. destruct H as (F1 & F2 & F3 & _). rewrite F1, F2, F3. auto.
Qed.

Lemma final_state fname level late body (st st' : rtp P) r : run_finaloutput peq path_of copy ini name fname level late body st = (st', r) ->
  (p_kw st' = match fname with None => p_kw st | Some n => if in_config "PROCESS_SPECS" ini then [("PROCESS_SPECS"%string, dset string_dec "finalout_name"%string n (section "PROCESS_SPECS" (p_kw st)))] else p_kw st end) /\
  (NoDup (keys (p_disc st)) -> NoDup (keys (p_disc st'))).
Proof.
  unfold run_finaloutput.
  assert (E0 : match fname with None => Ok (p_kw st) | Some n => override_config ini (p_kw st) false [("PROCESS_SPECS", [("finalout_name", n)])]%string end =
    match fname with None => Ok (p_kw st) | Some n => if in_config "PROCESS_SPECS" ini then Ok [("PROCESS_SPECS"%string, dset string_dec "finalout_name"%string n (section "PROCESS_SPECS" (p_kw st)))] else Err AssertionError end).
  { destruct fname as [n|]; [|reflexivity]. destruct (in_config "PROCESS_SPECS" ini) eqn:Ei; [apply override_final; exact Ei|apply override_final_err; exact Ei]. }
  rewrite E0. clear E0.
  assert (G : forall kw, (let st1 := set_auto true (set_kw kw st) in
     match setup_call peq path_of copy ini name "" "" late st1 with
     | (st2, Err e) => finally_ level false st2 (Err e)
     | (st2, Ok c) => finally_ level true (match level with Some lv => start_queue lv (set_auto (p_auto st) st2) | None => set_auto (p_auto st) st2 end) (match body with Some e => Err e | None => Ok c end)
     end) = (st', r) -> p_kw st' = kw /\ (NoDup (keys (p_disc st)) -> NoDup (keys (p_disc st')))).
  { intros kw. cbv zeta. destruct (setup_call peq path_of copy ini name "" "" late (set_auto true (set_kw kw st))) as [st2 [c|e]] eqn:E; destruct (setup_call_state _ _ _ _ _ _ E) as (S1 & S2 & S3 & S4 & S5); cbn in S1, S2, S3, S4, S5.
    - intros H. apply finally_state in H. destruct H as (F1 & F2 & F3 & _). rewrite F2, F3. destruct level; cbn; auto.
    - intros H. apply finally_state in H. destruct H as (F1 & F2 & F3 & _). rewrite F2, F3. auto. }
  destruct fname as [n|]; [|apply G]. destruct (in_config "PROCESS_SPECS" ini); [apply G|].
  intros H. apply finally_state in H. destruct H as (F1 & F2 & F3 & _). rewrite F2, F3. auto.
Qed.
End R.
