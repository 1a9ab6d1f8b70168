(** C130-C136: runs of an RTprocess object *)
From Coq Require Import String Ascii Arith Bool List Lia.
From Verif Require Import Base Base_Proofs Prc_Model Prc_Spec Prc_Proofs Prc_Props Run_Model Run_Proofs.
Import ListNotations.
Local Open Scope list_scope.

(** a fresh object, and the world of the examples of C66 *)
Definition log0 : logst := mklog 20 [("console"%string, 7)] [] false.
Definition st0 (ac : bool) (kw : config) (d : fs string) : rtp string := mkrtp ac kw d log0 0.
Definition d0 : fs string := [("dump"%string, mkfolder [] ["results/a.h5"%string])].

(** ** C130: stopping, and errors while a run is set up *)
(** No result, setting or handler is changed if the user refuses at the prompt. *)
Theorem C130_untouched : forall P (peq : forall x y : P, {x = y} + {x <> y}) path_of copy ini name level a1 a2 late body (st : rtp P) cfg,
  apply_kwargs ini (p_kw st) = Ok cfg -> p_auto st = false -> dget peq (path_of cfg) (p_disc st) <> None ->
  ~ yes a1 -> ~ (typed a1 "REMOVE" /\ yes a2) ->
  let '(st', r) := run_processing peq path_of copy ini name level a1 a2 late body st in
  p_disc st' = p_disc st /\ p_auto st' = p_auto st /\ p_kw st' = p_kw st /\ p_nq st' = p_nq st /\
  l_level (p_log st') = l_level (p_log st) /\ l_handlers (p_log st') = l_handlers (p_log st) /\ l_warn (p_log st') = l_warn (p_log st) /\ l_capture (p_log st') = false /\
  r = Err (match level with None => SystemExit | Some _ => UnboundLocalError end).
Proof.
  intros P peq path_of copy ini name level a1 a2 late body st cfg Ha Hauto Hex N1 N2. unfold run_processing, setup_call, setup. rewrite Ha, Hauto. cbv zeta.
  destruct (dget peq (path_of cfg) (p_disc st)) as [fo|] eqn:E; [|congruence]. cbn [negb andb].
  destruct (C66_confirmation a1 a2) as (_ & _ & C3). rewrite (proj2 C3 (conj N1 N2)).
  unfold finally_. destruct level; repeat split; cbn; auto.
Qed.
Print Assumptions C130_untouched.

(** Without a log-file the program stops with exit code 0 ... *)
Theorem C130_exit : forall P (peq : forall x y : P, {x = y} + {x <> y}) path_of copy ini name a1 a2 late body (st : rtp P) cfg,
  apply_kwargs ini (p_kw st) = Ok cfg -> p_auto st = false -> dget peq (path_of cfg) (p_disc st) <> None ->
  ~ yes a1 -> ~ (typed a1 "REMOVE" /\ yes a2) ->
  snd (run_processing peq path_of copy ini name None a1 a2 late body st) = Err SystemExit.
Proof.
  intros P peq path_of copy ini name a1 a2 late body st cfg H1 H2 H3 H4 H5. pose proof (C130_untouched P peq path_of copy ini name None a1 a2 late body st cfg H1 H2 H3 H4 H5) as H.
  destruct (run_processing peq path_of copy ini name None a1 a2 late body st) as [st' r]. apply H.
Qed.
Print Assumptions C130_exit.

(** ... but with a log-file (the default) the refusal always surfaces as an UnboundLocalError. *)
Theorem C130_exit_refuted : forall P (peq : forall x y : P, {x = y} + {x <> y}) path_of copy ini name lv a1 a2 late body (st : rtp P) cfg,
  apply_kwargs ini (p_kw st) = Ok cfg -> p_auto st = false -> dget peq (path_of cfg) (p_disc st) <> None ->
  ~ yes a1 -> ~ (typed a1 "REMOVE" /\ yes a2) ->
  snd (run_processing peq path_of copy ini name (Some lv) a1 a2 late body st) = Err UnboundLocalError.
Proof.
  intros P peq path_of copy ini name lv a1 a2 late body st cfg H1 H2 H3 H4 H5. pose proof (C130_untouched P peq path_of copy ini name (Some lv) a1 a2 late body st cfg H1 H2 H3 H4 H5) as H.
  destruct (run_processing peq path_of copy ini name (Some lv) a1 a2 late body st) as [st' r]. apply H.
Qed.
Print Assumptions C130_exit_refuted.

Example C130_example : run_processing string_dec path0 true ini0 "cfg.ini" None "no" "" None None (st0 false [] d0) = (st0 false [] d0, Err SystemExit) /\
  run_processing string_dec path0 true ini0 "cfg.ini" (Some 21) "no" "" None None (st0 false [] d0) = (st0 false [] d0, Err UnboundLocalError).
Proof. split; reflexivity. Qed.

(** Every error of [setup] is reported as an UnboundLocalError when a log-file is requested. *)
Theorem C130_errors_refuted : forall P (peq : forall x y : P, {x = y} + {x <> y}) path_of copy ini name lv late body (st st1 : rtp P) e,
  (forall a1 a2, setup_call peq path_of copy ini name a1 a2 late st = (st1, Err e) ->
     snd (run_processing peq path_of copy ini name (Some lv) a1 a2 late body st) = Err UnboundLocalError) /\
  (setup_call peq path_of copy ini name "" "" late (set_auto true st) = (st1, Err e) ->
     snd (run_finaloutput peq path_of copy ini name None (Some lv) late body st) = Err UnboundLocalError).
Proof.
  intros P peq path_of copy ini name lv late body st st1 e. split.
  - intros a1 a2 H. unfold run_processing. rewrite H. reflexivity.
  - intros H. unfold run_finaloutput. destruct st as [ac kw d l n]. unfold set_kw, set_auto in *. cbn in *. rewrite H. reflexivity.
Qed.
Print Assumptions C130_errors_refuted.

(** Errors that occur later are reported as they are. *)
Theorem C130_errors : forall P (peq : forall x y : P, {x = y} + {x <> y}) path_of copy ini name lv late (st st1 : rtp P) c e,
  (forall a1 a2, setup_call peq path_of copy ini name a1 a2 late st = (st1, Ok c) ->
     snd (run_processing peq path_of copy ini name (Some lv) a1 a2 late (Some e) st) = Err e) /\
  (setup_call peq path_of copy ini name "" "" late (set_auto true st) = (st1, Ok c) -> forall level,
     snd (run_finaloutput peq path_of copy ini name None level late (Some e) st) = Err e).
Proof.
  intros P peq path_of copy ini name lv late st st1 c e. split.
  - intros a1 a2 H. unfold run_processing. rewrite H. reflexivity.
  - intros H level. unfold run_finaloutput. destruct st as [ac kw d l n]. unfold set_kw, set_auto in *. cbn in *. rewrite H. destruct level; reflexivity.
Qed.
Print Assumptions C130_errors.

Example C130_errors_example :
  setup_call string_dec path0 true ini0 "cfg.ini" "" "" (Some KeyError) (st0 true [] []) = (st0 true [] [("dump"%string, mkfolder [("cfg.ini"%string, ini0)] [])], Err KeyError) /\
  snd (run_processing string_dec path0 true ini0 "cfg.ini" (Some 21) "" "" (Some KeyError) None (st0 true [] [])) = Err UnboundLocalError /\
  snd (run_processing string_dec path0 true ini0 "cfg.ini" (Some 21) "" "" None (Some KeyError) (st0 true [] [])) = Err KeyError.
Proof. repeat split; reflexivity. Qed.

(** ** C131: runs without a log-file *)
(** [run_processing(logfile_level=None)] never processes anything. *)
Theorem C131_processing_refuted : forall P (peq : forall x y : P, {x = y} + {x <> y}) path_of copy ini name a1 a2 late body (st : rtp P),
  is_ok (snd (run_processing peq path_of copy ini name None a1 a2 late body st)) = false /\
  (forall st1 c, setup_call peq path_of copy ini name a1 a2 late st = (st1, Ok c) ->
     snd (run_processing peq path_of copy ini name None a1 a2 late body st) = Err TypeError).
Proof.
  intros P peq path_of copy ini name a1 a2 late body st. split.
  - unfold run_processing. destruct (setup_call peq path_of copy ini name a1 a2 late st) as [st1 [c|e]]; reflexivity.
  - intros st1 c H. unfold run_processing. rewrite H. reflexivity.
Qed.
Print Assumptions C131_processing_refuted.

(** [run_finaloutput(logfile_level=None)] runs, and changes neither level nor handlers. *)
Theorem C131_final : forall P (peq : forall x y : P, {x = y} + {x <> y}) path_of copy ini name late body (st st1 : rtp P) c,
  setup_call peq path_of copy ini name "" "" late (set_auto true st) = (st1, Ok c) ->
  let '(st', r) := run_finaloutput peq path_of copy ini name None None late body st in
  r = match body with Some e => Err e | None => Ok c end /\
  l_level (p_log st') = l_level (p_log st) /\ l_handlers (p_log st') = l_handlers (p_log st) /\ l_warn (p_log st') = l_warn (p_log st) /\ p_disc st' = p_disc st1.
Proof.
  intros P peq path_of copy ini name late body st st1 c H. unfold run_finaloutput. destruct (setup_call_state _ _ _ _ _ _ _ _ _ _ _ H) as (S1 & S2 & S3 & S4 & S5).
  destruct st as [ac kw d l n]. unfold set_kw. cbn [p_kw p_auto p_disc p_log p_nq]. unfold set_auto in *. cbn in *. rewrite H. cbn. rewrite S3. repeat split; reflexivity.
Qed.
Print Assumptions C131_final.

Example C131_example :
  snd (run_processing string_dec path0 true ini0 "cfg.ini" None "" "" None None (st0 true [] [])) = Err TypeError /\
  snd (run_finaloutput string_dec path0 true ini0 "cfg.ini" None None None None (st0 true [] [])) = Ok ini0.
Proof. split; reflexivity. Qed.

(** ** C132: what a session leaves behind in logging *)
Lemma step_log P (peq : forall x y : P, {x = y} + {x <> y}) path_of copy ini name (st : rtp P) c :
  let st' := fst (step peq path_of copy ini name st c) in
  exists qs, l_warn (p_log st') = l_warn (p_log st) ++ qs /\ qs = seq (p_nq st) (length qs) /\ p_nq st' = p_nq st + length qs /\
  ((forall h, In h (l_handlers (p_log st)) -> fst h <> qname) -> l_handlers (p_log st') = l_handlers (p_log st)).
Proof.
  assert (F : forall l : list (string * nat), (forall h, In h l -> fst h <> qname) -> filter (fun h => negb (String.eqb (fst h) qname)) l = l).
  { induction l as [|h l IH]; intros H; [reflexivity|]. cbn [filter]. assert (N : String.eqb (fst h) qname = false) by (apply String.eqb_neq; apply H; left; reflexivity). rewrite N. cbn [negb]. f_equal. apply IH. intros h' I. apply H. right. exact I. }
  assert (F2 : forall (l : list (string * nat)) q, (forall h, In h l -> fst h <> qname) -> filter (fun h => negb (String.eqb (fst h) qname)) (l ++ [(qname, q)]) = l).
  { intros l q H. rewrite filter_app, (F l H). cbn [filter fst]. rewrite String.eqb_refl. cbn [negb]. apply app_nil_r. }
  assert (N : forall (st2 : rtp P) (r : res config) level, p_log st2 = p_log st -> p_nq st2 = p_nq st ->
    exists qs, l_warn (p_log (fst (finally_ level false st2 r))) = l_warn (p_log st) ++ qs /\ qs = seq (p_nq st) (length qs) /\ p_nq (fst (finally_ level false st2 r)) = p_nq st + length qs /\
    ((forall h, In h (l_handlers (p_log st)) -> fst h <> qname) -> l_handlers (p_log (fst (finally_ level false st2 r))) = l_handlers (p_log st))).
  { intros st2 r level E1 E2. exists []. destruct level; cbn; rewrite E1, E2, app_nil_r, Nat.add_0_r; repeat split. }
  assert (Y : forall (st2 : rtp P) (r : res config) lv, p_log st2 = p_log st -> p_nq st2 = p_nq st ->
    exists qs, l_warn (p_log (fst (finally_ (Some lv) true (start_queue lv st2) r))) = l_warn (p_log st) ++ qs /\ qs = seq (p_nq st) (length qs) /\ p_nq (fst (finally_ (Some lv) true (start_queue lv st2) r)) = p_nq st + length qs /\
    ((forall h, In h (l_handlers (p_log st)) -> fst h <> qname) -> l_handlers (p_log (fst (finally_ (Some lv) true (start_queue lv st2) r))) = l_handlers (p_log st))).
  { intros st2 r lv E1 E2. exists [p_nq st]. cbn. rewrite E1, E2. repeat split; try lia. apply F2. }
  cbv zeta. destruct c as [level a1 a2 late body|fname level late body|ov kw]; cbn [step fst snd].
  - unfold run_processing. destruct (setup_call peq path_of copy ini name a1 a2 late st) as [st1 [c|e]] eqn:E; destruct (setup_call_state _ _ _ _ _ _ _ _ _ _ _ E) as (_ & _ & S3 & S4 & _).
    + destruct level as [lv|]; [apply Y|apply N]; assumption.
    + apply N; assumption.
  - unfold run_finaloutput. destruct (match fname with None => _ | Some n => _ end) as [kw|e]; [|apply N; reflexivity]. cbv zeta.
    destruct (setup_call peq path_of copy ini name "" "" late (set_auto true (set_kw kw st))) as [st1 [c|e]] eqn:E; destruct (setup_call_state _ _ _ _ _ _ _ _ _ _ _ E) as (_ & _ & S3 & S4 & _).
    + destruct level as [lv|]; [apply Y; assumption|].
      exists []. cbn. cbn in S3, S4. rewrite S3, S4, app_nil_r, Nat.add_0_r. repeat split.
    + apply N; assumption.
  - exists []. destruct (override_config ini (p_kw st) ov kw); cbn; rewrite app_nil_r, Nat.add_0_r; repeat split.
Qed.

(** The handlers of the logger are those from before, whatever is called and however it ends. *)
Theorem C132_handlers : forall P (peq : forall x y : P, {x = y} + {x <> y}) path_of copy ini name l (st : rtp P),
  (forall h, In h (l_handlers (p_log st)) -> fst h <> qname) ->
  l_handlers (p_log (session peq path_of copy ini name st l)) = l_handlers (p_log st).
Proof.
  intros P peq path_of copy ini name l. unfold session. induction l as [|c l IH]; intros st H; [reflexivity|]. cbn [fold_left].
  destruct (step_log P peq path_of copy ini name st c) as (qs & _ & _ & _ & E). rewrite IH; rewrite (E H); [reflexivity|exact H].
Qed.
Print Assumptions C132_handlers.

(** The handlers of "py.warnings" are never removed: there is one for every queue that was ever made. *)
Theorem C132_warnings_refuted : forall P (peq : forall x y : P, {x = y} + {x <> y}) path_of copy ini name l (st : rtp P),
  let st' := session peq path_of copy ini name st l in
  exists n, p_nq st' = p_nq st + n /\ l_warn (p_log st') = l_warn (p_log st) ++ seq (p_nq st) n.
Proof.
  intros P peq path_of copy ini name l. unfold session. induction l as [|c l IH]; intros st; cbv zeta.
  - exists 0. cbn. rewrite app_nil_r. auto.
  - cbn [fold_left]. destruct (step_log P peq path_of copy ini name st c) as (qs & E1 & E2 & E3 & _). destruct (IH (fst (step peq path_of copy ini name st c))) as (n & I1 & I2).
    exists (length qs + n). cbv zeta in I1, I2. rewrite I1, I2, E1, E3. split; [lia|]. rewrite <- app_assoc. f_equal. rewrite seq_app. f_equal. exact E2.
Qed.
Print Assumptions C132_warnings_refuted.

(** Each run that is set up with a log-file adds one, and its level stays. *)
Theorem C132_level_refuted : forall P (peq : forall x y : P, {x = y} + {x <> y}) path_of copy ini name lv late body (st st1 : rtp P) c,
  (forall a1 a2, setup_call peq path_of copy ini name a1 a2 late st = (st1, Ok c) ->
     let st' := fst (run_processing peq path_of copy ini name (Some lv) a1 a2 late body st) in
     l_level (p_log st') = lv /\ l_warn (p_log st') = l_warn (p_log st) ++ [p_nq st]) /\
  (setup_call peq path_of copy ini name "" "" late (set_auto true st) = (st1, Ok c) ->
     let st' := fst (run_finaloutput peq path_of copy ini name None (Some lv) late body st) in
     l_level (p_log st') = lv /\ l_warn (p_log st') = l_warn (p_log st) ++ [p_nq st]).
Proof.
  intros P peq path_of copy ini name lv late body st st1 c. split.
  - intros a1 a2 H. destruct (setup_call_state _ _ _ _ _ _ _ _ _ _ _ H) as (_ & _ & S3 & S4 & _). unfold run_processing. rewrite H. cbn. rewrite S3, S4. split; reflexivity.
  - intros H. destruct (setup_call_state _ _ _ _ _ _ _ _ _ _ _ H) as (_ & _ & S3 & S4 & _). cbn in S3, S4. unfold run_finaloutput. destruct st as [ac kw d l n]. unfold set_kw, set_auto in *. cbn in *. rewrite H. cbn. rewrite S3, S4. split; reflexivity.
Qed.
Print Assumptions C132_level_refuted.

(** warnings are not captured after a run *)
Theorem C132_capture : forall P (peq : forall x y : P, {x = y} + {x <> y}) path_of copy ini name (st : rtp P),
  (forall level a1 a2 late body, l_capture (p_log (fst (run_processing peq path_of copy ini name level a1 a2 late body st))) = false) /\
  (forall fname level late body, l_capture (p_log (fst (run_finaloutput peq path_of copy ini name fname level late body st))) = false).
Proof.
  intros P peq path_of copy ini name st.
  assert (F : forall A level bound (s : rtp P) (r : res A), l_capture (p_log (fst (finally_ level bound s r))) = false) by (intros A [lv|] [|] s r; reflexivity).
  split.
  - intros. unfold run_processing. destruct (setup_call peq path_of copy ini name a1 a2 late st) as [st1 [c|e]]; [destruct level|]; apply F.
  - intros. unfold run_finaloutput. destruct (match fname with None => _ | Some n => _ end) as [kw|e]; [|apply F]. cbv zeta.
    destruct (setup_call peq path_of copy ini name "" "" late (set_auto true (set_kw kw st))) as [st1 [c|e]]; apply F.
Qed.
Print Assumptions C132_capture.

Example C132_example : let st := session string_dec path0 true ini0 "cfg.ini" (st0 true [] [])
    [Processing (Some 21) "" "" None None; Finaloutput (Some "out.h5"%string) (Some 10) None (Some KeyError); Processing (Some 30) "" "" (Some KeyError) None] in
  p_log st = mklog 10 [("console"%string, 7)] [0; 1] false /\ p_nq st = 2.
Proof. split; reflexivity. Qed.

(** ** C133: the name of the output of run_finaloutput, and its effect on the object *)
(** the name that is passed is used *)
Theorem C133_name : forall P (peq : forall x y : P, {x = y} + {x <> y}) path_of copy ini name n level late body (st st' : rtp P) c,
  wf (p_kw st) -> NoDup (keys (p_disc st)) ->
  run_finaloutput peq path_of copy ini name (Some n) level late body st = (st', Ok c) ->
  value c "PROCESS_SPECS" "finalout_name" = Some n.
Proof.
  intros P peq path_of copy ini name n level late body st st' c W ND H. unfold run_finaloutput in H.
  destruct (in_config "PROCESS_SPECS" ini) eqn:Ei; [rewrite (override_final _ _ _ Ei) in H|rewrite (override_final_err _ _ _ Ei) in H; destruct level; discriminate].
  set (kw := [("PROCESS_SPECS"%string, dset string_dec "finalout_name"%string n (section "PROCESS_SPECS" (p_kw st)))]) in *. cbv zeta in H.
  destruct (setup_call peq path_of copy ini name "" "" late (set_auto true (set_kw kw st))) as [st2 [c2|e]] eqn:E; [|destruct level; discriminate].
  assert (Ec : c2 = c) by (destruct level, body; cbn in H; congruence). subst c2.
  unfold setup_call in E. cbn [set_auto set_kw p_auto p_kw p_disc] in E. destruct (setup peq path_of true true copy ini name kw "" "" (p_disc st)) as [d o] eqn:Es. destruct o as [|e|c']; try discriminate. destruct late; [discriminate|]. injection E as _ ->.
  assert (U : updated ini kw c). { apply (C100_configuration P peq path_of true copy ini name kw "" "" (p_disc st) d c ND); [apply override_final_wf; exact W|exact Es|]. right. left. discriminate. }
  rewrite (U "PROCESS_SPECS"%string "finalout_name"%string). unfold kw. rewrite override_final_value. reflexivity.
Qed.
Print Assumptions C133_name.

(** calls that give no name *)
Definition unnamed (c : call) : Prop := match c with Processing _ _ _ _ _ => True | Finaloutput None _ _ _ => True | _ => False end.

(** The name stays: all later outputs without a name are written to the file of the earlier call. *)
Theorem C133_name_refuted : forall P (peq : forall x y : P, {x = y} + {x <> y}) path_of copy ini name n level late body l (st : rtp P),
  wf (p_kw st) -> NoDup (keys (p_disc st)) -> in_config "PROCESS_SPECS" ini = true -> (forall c, In c l -> unnamed c) ->
  let st1 := session peq path_of copy ini name st (Finaloutput (Some n) level late body :: l) in
  value (p_kw st1) "PROCESS_SPECS" "finalout_name" = Some n /\
  forall level' late' body' st2 c, run_finaloutput peq path_of copy ini name None level' late' body' st1 = (st2, Ok c) ->
    value c "PROCESS_SPECS" "finalout_name" = Some n.
Proof.
  intros P peq path_of copy ini name n level late body l st W ND Hi Hl. set (kw := [("PROCESS_SPECS"%string, dset string_dec "finalout_name"%string n (section "PROCESS_SPECS" (p_kw st)))]).
  assert (I : forall l, (forall c, In c l -> unnamed c) -> let st1 := session peq path_of copy ini name st (Finaloutput (Some n) level late body :: l) in p_kw st1 = kw /\ NoDup (keys (p_disc st1))).
  { clear l Hl. intros l. induction l as [|c l IH] using rev_ind; intros Hl; cbv zeta.
    - unfold session. cbn [fold_left step fst]. destruct (run_finaloutput peq path_of copy ini name (Some n) level late body st) as [s r] eqn:E. destruct (final_state _ _ _ _ _ _ _ _ _ _ _ _ E) as (E1 & E2). cbn [fst snd]. rewrite E1, Hi. split; [reflexivity|apply E2; exact ND].
    - destruct IH as [I1 I2]; [intros c' X; apply Hl; apply in_or_app; left; exact X|]. change (Finaloutput (Some n) level late body :: l ++ [c]) with ((Finaloutput (Some n) level late body :: l) ++ [c]).
      unfold session in *. rewrite fold_left_app. set (s := fold_left _ (Finaloutput (Some n) level late body :: l) st) in *. cbn [fold_left].
      assert (Ic : In c (l ++ [c])) by (apply in_or_app; right; left; reflexivity). specialize (Hl c Ic). destruct c as [lv a1 a2 la bo|fn lv la bo|ov kw']; cbn in Hl; try tauto; cbn [step fst].
      + destruct (run_processing peq path_of copy ini name lv a1 a2 la bo s) as [s' r] eqn:E. destruct (processing_state _ _ _ _ _ _ _ _ _ _ _ _ _ E) as (_ & E1 & E2). cbn [fst snd]. rewrite E1. auto.
      + destruct fn; [tauto|]. destruct (run_finaloutput peq path_of copy ini name None lv la bo s) as [s' r] eqn:E. destruct (final_state _ _ _ _ _ _ _ _ _ _ _ _ E) as (E1 & E2). cbn [fst snd]. rewrite E1. auto. }
  destruct (I l Hl) as [I1 I2]. cbv zeta in *. set (st1 := session _ _ _ _ _ st _) in *. split; [rewrite I1; apply override_final_value|].
  intros level' late' body' st2 c H. unfold run_finaloutput in H. cbv zeta in H.
  destruct (setup_call peq path_of copy ini name "" "" late' (set_auto true (set_kw (p_kw st1) st1))) as [st3 [c2|e]] eqn:E; [|destruct level'; discriminate].
  assert (Ec : c2 = c) by (destruct level', body'; cbn in H; congruence). subst c2.
  unfold setup_call in E. cbn [set_auto set_kw p_auto p_kw p_disc] in E. rewrite I1 in E. destruct (setup peq path_of true true copy ini name kw "" "" (p_disc st1)) as [d o] eqn:Es. destruct o as [|e|c']; try discriminate. destruct late'; [discriminate|]. injection E as _ ->.
  assert (U : updated ini kw c). { apply (C100_configuration P peq path_of true copy ini name kw "" "" (p_disc st1) d c I2); [apply override_final_wf; exact W|exact Es|]. right. left. discriminate. }
  rewrite (U "PROCESS_SPECS"%string "finalout_name"%string). unfold kw. rewrite override_final_value. reflexivity.
Qed.
Print Assumptions C133_name_refuted.

(** All overrides of other sections are gone after a call with a name. *)
Theorem C133_overrides_refuted : forall P (peq : forall x y : P, {x = y} + {x <> y}) path_of copy ini name n level late body (st : rtp P) s,
  in_config "PROCESS_SPECS" ini = true -> s <> "PROCESS_SPECS"%string ->
  dget string_dec s (p_kw (fst (run_finaloutput peq path_of copy ini name (Some n) level late body st))) = None.
Proof.
  intros P peq path_of copy ini name n level late body st s Hi Hs. destruct (run_finaloutput peq path_of copy ini name (Some n) level late body st) as [st' r] eqn:E.
  destruct (final_state _ _ _ _ _ _ _ _ _ _ _ _ E) as (E1 & _). cbn [fst]. rewrite E1, Hi. cbn [dget]. destruct (string_dec s "PROCESS_SPECS"); congruence.
Qed.
Print Assumptions C133_overrides_refuted.

(** values given to [override_config] are those of the next processing run; a rejected call has no effect *)
Theorem C133_override : forall P (peq : forall x y : P, {x = y} + {x <> y}) path_of copy ini name ov kw (st st1 : rtp P) r,
  wf (p_kw st) -> wf kw -> NoDup (keys (p_disc st)) -> kw <> [] ->
  step peq path_of copy ini name st (Override ov kw) = (st1, r) ->
  (forall e, r = Err e -> st1 = st) /\
  (forall x, r = Ok x -> forall level a1 a2 late body st2 c,
     run_processing peq path_of copy ini name level a1 a2 late body st1 = (st2, Ok c) ->
     forall s k v, value kw s k = Some v -> value c s k = Some v).
Proof.
  intros P peq path_of copy ini name ov kw st st1 r W Wk ND Nk H. cbn [step] in H.
  destruct (override_config ini (p_kw st) ov kw) as [kw'|e] eqn:E; injection H as <- <-.
  2:{ split; [reflexivity|discriminate]. }
  split; [discriminate|]. intros x _ level a1 a2 late body st2 c H s k v Hv.
  assert (W' : wf kw' /\ kw' <> []).
  { assert (Hs : forall s, In s (keys kw) -> in_config s ini = true).
    { intros s0 Hin. destruct (in_config s0 ini) eqn:Es; [reflexivity|]. exfalso. unfold override_config in E.
      apply in_map_iff in Hin. destruct Hin as (sd & <- & Hin).
      rewrite (mapM_err _ AssertionError kw sd) in E; [discriminate| |exact Hin|rewrite Es; reflexivity]. intros y _. destruct (in_config (fst y) ini); [left|right]; reflexivity. }
    rewrite (override_ok ini (p_kw st) ov kw Hs) in E. injection E as <-. destruct Wk as [W1 W2]. split; [split|].
    - unfold keys in *. rewrite map_map. exact W1.
    - intros s' d' I. apply in_map_iff in I. destruct I as ([s0 d0] & X & I). cbn [fst snd] in X. injection X as <- <-.
      destruct ov; [apply NoDup_keys_dupdate; constructor|apply NoDup_keys_dupdate, section_nodup, W].
    - destruct kw; [congruence|discriminate]. }
  destruct W' as [W' Nk']. unfold run_processing in H.
  destruct (setup_call peq path_of copy ini name a1 a2 late (set_kw kw' st)) as [s1 [c1|e1]] eqn:Es; [|destruct level; discriminate].
  assert (c1 = c) as -> by (destruct level, body; cbn in H; congruence).
  unfold setup_call in Es. cbn [set_kw p_auto p_kw p_disc] in Es.
  destruct (setup peq path_of true (p_auto st) copy ini name kw' a1 a2 (p_disc st)) as [d o] eqn:Et. destruct o as [|e1|c']; try discriminate.
  destruct late; [discriminate|]. injection Es as _ ->.
  assert (U : updated ini kw' c).
  { apply (C100_configuration P peq path_of (p_auto st) copy ini name kw' a1 a2 (p_disc st) d c ND W' Et). right. left. exact Nk'. }
  rewrite (U s k), (override_value ini (p_kw st) ov kw kw' Wk E). unfold value in Hv. destruct (dget string_dec s kw) as [d0|]; [|discriminate].
  rewrite Hv. reflexivity.
Qed.
Print Assumptions C133_override.

(** autocontinue is the same after a call without an error in [setup] ... *)
Theorem C133_autocontinue : forall P (peq : forall x y : P, {x = y} + {x <> y}) path_of copy ini name fname level late body (st st' : rtp P) c,
  run_finaloutput peq path_of copy ini name fname level late body st = (st', Ok c) -> p_auto st' = p_auto st.
Proof.
  intros P peq path_of copy ini name fname level late body st st' c H. unfold run_finaloutput in H.
  destruct (match fname with None => _ | Some n => _ end) as [kw|e]; [|destruct level; discriminate]. cbv zeta in H.
  destruct (setup_call peq path_of copy ini name "" "" late (set_auto true (set_kw kw st))) as [st2 [c2|e]] eqn:E; [|destruct level; discriminate].
  apply finally_state in H. destruct H as (H & _). rewrite H. destruct level; reflexivity.
Qed.
Print Assumptions C133_autocontinue.

(** ... but switched on for good after one: the next processing run does not ask before it uses an existing folder. *)
Theorem C133_autocontinue_refuted : forall P (peq : forall x y : P, {x = y} + {x <> y}) path_of copy ini name fname level e body (st : rtp P),
  in_config "PROCESS_SPECS" ini = true ->
  let st' := fst (run_finaloutput peq path_of copy ini name fname level (Some e) body st) in
  p_auto st' = true /\
  forall level' a1 a2 b1 b2 late' body', run_processing peq path_of copy ini name level' a1 a2 late' body' st' = run_processing peq path_of copy ini name level' b1 b2 late' body' st'.
Proof.
  intros P peq path_of copy ini name fname level e body st Hi st'.
  assert (A : p_auto st' = true).
  { unfold st', run_finaloutput.
    assert (E0 : exists kw, match fname with None => Ok (p_kw st) | Some n => override_config ini (p_kw st) false [("PROCESS_SPECS", [("finalout_name", n)])]%string end = Ok kw).
    { destruct fname as [n|]; [rewrite (override_final _ _ _ Hi)|]; eexists; reflexivity. }
    destruct E0 as [kw E0]. rewrite E0. cbv zeta. destruct (setup_call peq path_of copy ini name "" "" (Some e) (set_auto true (set_kw kw st))) as [st2 [c|e2]] eqn:E.
    - unfold setup_call in E. destruct (setup _ _ _ _ _ _ _ _ _ _ _) as [d o]. destruct o; discriminate.
    - destruct (setup_call_state _ _ _ _ _ _ _ _ _ _ _ E) as (S1 & _). destruct level; cbn; exact S1. }
  split; [exact A|]. intros. unfold run_processing, setup_call. rewrite A. rewrite (setup_auto_answers peq path_of copy ini name (p_kw st') a1 a2 b1 b2). reflexivity.
Qed.
Print Assumptions C133_autocontinue_refuted.

Definition ini1 : config := [("PROCESS_SPECS", [("dumpfolder", "dump"); ("finalout_name", "default.h5")]); ("defdict", [("omega", "0.1")])]%string.
Example C133_example :
  let st := fst (run_finaloutput string_dec path0 true ini1 "cfg.ini" (Some "a.h5"%string) None None None (st0 false [("defdict", [("omega", "0.5")])]%string d0)) in
  p_kw st = [("PROCESS_SPECS", [("finalout_name", "a.h5")])]%string /\ p_auto st = false /\
  (exists c, snd (run_finaloutput string_dec path0 true ini1 "cfg.ini" None None None None st) = Ok c /\ value c "PROCESS_SPECS" "finalout_name" = Some "a.h5"%string) /\
  p_auto (fst (run_finaloutput string_dec path0 true ini1 "cfg.ini" None None (Some KeyError) None (st0 false [] d0))) = true.
Proof. repeat split; try reflexivity. eexists. split; reflexivity. Qed.

(** ** C134: initializers of the workers *)
(** [k] is reused for runs with the queues and counters [qs] *)
Definition reused (qs : list (nat * nat)) (k : poolkw) : poolkw := fold_left (fun k qc => wrap_pool (fst qc) (snd qc) k) qs k.

Lemma worker_reused qs k : k_init k <> Some OwnInit ->
  worker_of (reused qs k) = Some (flat_map (fun qc => [EConfigure (fst qc); ECount (snd qc); ESetup]) (rev qs) ++
    match k_init k with Some (UserInit f) => [EUser f (match k_args k with Some a => a | None => [] end)] | _ => [] end).
Proof.
  intros H. unfold reused. induction qs as [|qc qs IH] using rev_ind.
  - cbn. unfold worker_of. destruct (k_init k) as [[f|]|]; [|congruence|]; destruct (k_args k) as [[|]|]; reflexivity.
  - rewrite fold_left_app, rev_app_distr. cbn [fold_left rev app flat_map]. set (kq := fold_left _ qs k) in *. unfold worker_of in *. cbn [wrap_pool k_init k_args start_worker]. rewrite IH. reflexivity.
Qed.

(** The initializer of the user is called exactly once per worker, with its arguments, after the
    worker has been set up, however often the dict has been used before. *)
Theorem C134_initializer : forall qs q c f args,
  exists before, worker_of (reused (qs ++ [(q, c)]) (mkpool (Some (UserInit f)) args)) =
    Some (EConfigure q :: ECount c :: ESetup :: before ++ [EUser f (match args with Some a => a | None => [] end)]) /\
  forall g a, ~ In (EUser g a) before.
Proof.
  intros qs q c f args. exists (flat_map (fun qc => [EConfigure (fst qc); ECount (snd qc); ESetup]) (rev qs)). split.
  - rewrite worker_reused by discriminate. rewrite rev_app_distr. cbn. destruct args; reflexivity.
  - intros g a H. apply in_flat_map in H. destruct H as ([q' c'] & _ & H). cbn in H. intuition discriminate.
Qed.
Print Assumptions C134_initializer.

(** without an initializer the worker is configured, counted and set up once *)
Theorem C134_first : forall q c k, k_init k = None -> worker_of (wrap_pool q c k) = Some [EConfigure q; ECount c; ESetup].
Proof. intros q c k H. change (wrap_pool q c k) with (reused [(q, c)] k). rewrite worker_reused; rewrite H; [reflexivity|discriminate]. Qed.
Print Assumptions C134_first.

(** Every run with the same dict adds another round: after k runs each worker is set up k times and
    writes its log to the queues of all earlier runs too. *)
Theorem C134_reuse_refuted : forall qs k, k_init k <> Some OwnInit ->
  exists ev, worker_of (reused qs k) = Some ev /\
  (forall q c, In (q, c) qs -> In (EConfigure q) ev /\ In (ECount c) ev) /\
  length (filter (fun e => match e with ESetup => true | _ => false end) ev) = length qs.
Proof.
  intros qs k H. eexists. split; [apply worker_reused; exact H|]. split.
  - intros q c I. split; apply in_or_app; left; apply in_flat_map; exists (q, c); (split; [apply in_rev; rewrite rev_involutive; exact I|]); cbn; auto.
  - rewrite filter_app, app_length.
    assert (E : length (filter (fun e => match e with ESetup => true | _ => false end) (match k_init k with Some (UserInit f) => [EUser f (match k_args k with Some a => a | None => [] end)] | _ => [] end)) = 0) by (destruct (k_init k) as [[f|]|]; reflexivity).
    rewrite E, Nat.add_0_r. rewrite <- (rev_length qs). induction (rev qs) as [|x l IH]; [reflexivity|]. cbn. f_equal. exact IH.
Qed.
Print Assumptions C134_reuse_refuted.

Example C134_example : worker_of (reused [(0, 1); (2, 3)] (mkpool (Some (UserInit "f")) (Some [AUser "x"]))) =
  Some [EConfigure 2; ECount 3; ESetup; EConfigure 0; ECount 1; ESetup; EUser "f" [AUser "x"]].
Proof. reflexivity. Qed.

(** ** C135: the features of a run *)
(** what preprocess provides *)
Definition provides {A} (pre : preprocessed A) (r : list A) : Prop := pre = RDict (Some r).

(** They come from the argument or from preprocess(), and it is an error to provide both or none. *)
Theorem C135_source : forall A (arg : option (list A)) pre r,
  (reader_args arg pre = Ok r <-> (arg = Some r /\ pre <> ROther /\ forall r', ~ provides pre r') \/ (arg = None /\ provides pre r)) /\
  (is_ok (reader_args arg pre) = false -> reader_args arg pre = Err AssertionError).
Proof.
  intros A arg pre r. unfold provides, reader_args. destruct pre as [| |[r'|]|], arg as [a|]; cbn; (split; [|try discriminate; reflexivity]); split; intros H;
    try discriminate; try (destruct H as [(H1 & H2 & H3)|(H1 & H2)]); try congruence;
    try (injection H as <-); auto; try (left; repeat split; congruence); try (exfalso; eapply H3; reflexivity).
Qed.
Print Assumptions C135_source.

Example C135_example : reader_args (Some [1; 2]) (RDict None) = Ok [1; 2] /\ reader_args (Some [1]) (RDict (Some [2])) = Err AssertionError /\ reader_args None (RDict (Some [3])) = Ok [3] /\ @reader_args nat None RNone = Err AssertionError.
Proof. repeat split; reflexivity. Qed.

(** ** C136: init_kwargs of the constructor *)
(** No setting can be changed with the argument: dicts are refused by the constructor, and strings by [setup]. *)
Theorem C136_refuted : forall ini kw, kw <> [] ->
  init_init_kwargs (Some kw) = Err AssertionError \/
  exists kw' e, init_init_kwargs (Some kw) = Ok kw' /\ setup_init_kwargs ini kw' = Err e.
Proof.
  intros ini kw N. unfold init_init_kwargs. destruct (forallb _ kw) eqn:E; [|left; reflexivity]. right. exists kw.
  assert (F : forall e l, fold_left (fun acc (sv : string * kwval) => do c <- acc;
    if in_config (fst sv) c then match snd sv with KStr _ => Err AttributeError | KDict d => Ok (fold_left (fun c kv => set_value c (fst sv) (fst kv) (snd kv)) d c) end else Err AssertionError) l (Err e) = Err e).
  { intros e l. induction l as [|x l IH]; [reflexivity|]. cbn [fold_left bind]. exact IH. }
  destruct kw as [|[s [v|d]] kw]; [congruence| |discriminate]. unfold setup_init_kwargs. cbn [fold_left bind fst snd].
  destruct (in_config s ini); eexists; (split; [reflexivity|apply F]).
Qed.
Print Assumptions C136_refuted.

(** without the argument the config-file is used as it is *)
Theorem C136_default : forall ini, (do kw <- init_init_kwargs None; setup_init_kwargs ini kw) = Ok ini.
Proof. reflexivity. Qed.
Print Assumptions C136_default.

Example C136_example :
  init_init_kwargs (Some [("defdict"%string, KDict [("omega", "0.5")]%string)]) = Err AssertionError /\
  (do kw <- init_init_kwargs (Some [("defdict"%string, KStr "0.5")]); setup_init_kwargs ini0 kw) = Err AttributeError.
Proof. split; reflexivity. Qed.
