(** C48-C52, C90: the processing pipeline. *)
From Coq Require Import List Arith Bool String Ascii Lia Permutation.
From Verif Require Import Base Base_Proofs Str_Model Pip_Model Pip_Spec Pip_Proofs Pip2_Proofs Pip3_Proofs Pip4_Proofs.
Import ListNotations.
Open Scope string_scope.

(** ** a concrete run used in the examples: task 0 returns a constant table
    "reader_arg" and a table "a/x", task 1 raises *)
Definition ex_result : @result nat :=
  [("const__reader_arg", Leaf (Frame [10])); ("a", Sub [("x", Frame [11; 12])])].
Definition ex_what (j : nat) : @outcome nat := match j with 0 => Returns (MDict ex_result) | _ => Raises end.
Definition ex_params : @params nat nat := mkparams 1 1 1 1 1 ex_what.
Definition ex_start : list event := [SStep 0; SStep 0; SStep 0; WStart 0; WFinish 0].
Definition ex_combine : list event := [CStep 0; CStep 0; CStep 0; CStep 0; CStep 0; CThread 0 0; SStep 0; SStep 0].
Definition ex_rest : list event :=
  [SStep 0; SStep 0; SStep 0; WStart 0; WFinish 0; CStep 0; CStep 0; CStep 0; CStep 0; CTimeout 0; Main; CStep 0; CStep 0; Main; SStep 0; Main].
Definition ex_events : list event := (ex_start ++ ex_combine ++ ex_rest)%list.
Definition ex_kind (k : string) : bool := true.

Lemma ex_undisturbed : undisturbed ex_events.
Proof. split; [|intros w]; cbn; intros H; repeat (destruct H as [H|H]; [discriminate|]); exact H. Qed.
Lemma ex_good : forall j, In j [0; 1] -> good_task ex_kind (what ex_params j).
Proof.
  intros j [<-|[<-|[]]]; [|exact I]. cbn. split.
  - intros n c [H|[H|[]]]; inversion H; subst; cbn; intuition discriminate.
  - split.
    + intros n d [H|[H|[]]]; inversion H.
    + intros k v H. cbn in H. destruct H as [H|[H|[]]]; inversion H; reflexivity.
Qed.

(** ** C48 *)
Theorem C48_exactly_once (Job Row : Type) (p : @params Job Row) (jobs : list Job) (kind : string -> bool) (es : list event) (s : state) :
  1 <= n_combiner p -> 1 <= n_writer p -> (forall j, In j jobs -> good_task kind (what p j)) ->
  undisturbed es -> executes p jobs es s -> main s = PEnd ->
  Permutation (store s) (flat_map (job_rows p) jobs).
Proof.
  intros Nc Nw GT U X M. destruct (good_run p jobs kind GT es (init p jobs) s (good_init p jobs kind) U X) as [G P].
  rewrite init_rows, (good_end_rows p jobs kind s Nc Nw G M) in P. rewrite <- P.
  assert (E : flat_map (jrows p) jobs = flat_map (job_rows p) jobs); [|rewrite E; reflexivity].
  clear - GT. induction jobs as [|j l IH]; [reflexivity|]. cbn [flat_map]. rewrite IH; [|intros k Hk; apply GT; right; exact Hk].
  f_equal. apply (jrows_good p (j :: l) kind GT). left; reflexivity.
Qed.
Print Assumptions C48_exactly_once.
Example C48_example : exists s, executes ex_params [0; 1] ex_events s /\ main s = PEnd /\
  undisturbed ex_events /\ (forall j, In j [0; 1] -> good_task ex_kind (what ex_params j)) /\
  store s = [("reader_arg", 10); ("a/x", 11); ("a/x", 12)].
Proof. eexists. split; [vm_compute; reflexivity|]. split; [reflexivity|]. split; [apply ex_undisturbed|]. split; [apply ex_good|reflexivity]. Qed.

(** whatever fails or interrupts, and whatever the tasks return: no row is ever stored twice *)
Theorem C48_never_twice (Job Row : Type) (p : @params Job Row) (jobs : list Job) (es : list event) (s : state) :
  executes p jobs es s ->
  exists lost, Permutation (map snd (store s) ++ lost)%list (map snd (flat_map (job_rows p) jobs)).
Proof.
  intros X. destruct (run_rows p es (init p jobs) s X) as [l1 P1]. rewrite init_rows in P1.
  destruct (jobs_rows_split p jobs) as [l2 P2]. unfold allrows in P1.
  exists (map snd (flat_map (jrows p) (todo s) ++ flat_map (jrows p) (running s) ++ flat_map mrows (queue s)
    ++ flat_map xrows (combs s) ++ flat_map brows (outq s) ++ flat_map wrows (writers s) ++ l1) ++ l2)%list.
  symmetry. rewrite P2, P1. rewrite !map_app.
  Perm_Tac.perm.
Qed.
Print Assumptions C48_never_twice.
Example C48_never_twice_example : exists s,
  executes ex_params [0; 1] (ex_start ++ ex_combine ++ [SStep 0; SFail 0])%list s /\ store s = [("reader_arg", 10)].
Proof. eexists. split; vm_compute; reflexivity. Qed.

(** ** C49 *)
Theorem C49_counters_bounded (Job Row : Type) (p : @params Job Row) (jobs : list Job) (es : list event) (s : state) :
  executes p jobs es s ->
  meancnt s <= totcnt s /\ totcnt s <= total (queued p) jobs /\ meancnt s <= total (dicts p) jobs /\ total (queued p) jobs <= List.length jobs.
Proof.
  intros X. split; [apply (run_le p es (init p jobs) s X); cbn; lia|].
  destruct (run_counts p es (init p jobs) s X) as [A B]. rewrite init_counts in A, B. cbn [init meancnt totcnt] in A, B. rewrite !total_sumf.
  assert (Q : sumf (fun j => sumf notbad (worker_put (what p j))) jobs <= sumf (queued p) jobs).
  { apply sumf_le. intros j _. unfold queued. destruct (what p j) as [| |[]]; cbn; lia. }
  assert (D : sumf (fun j => sumf isdict (worker_put (what p j))) jobs = sumf (dicts p) jobs).
  { apply sumf_ext. intros j _. unfold dicts. destruct (what p j) as [| |[]]; reflexivity. }
  assert (L : sumf (queued p) jobs <= List.length jobs).
  { clear. induction jobs as [|j l IH]; cbn; [lia|]. unfold queued at 1. destruct (what p j); lia. }
  cbn in *. lia.
Qed.
Print Assumptions C49_counters_bounded.

(** at every point of every execution each result is either counted (once) or still on its way *)
Theorem C49_counters_exact (Job Row : Type) (p : @params Job Row) (jobs : list Job) (es : list event) (s : state) :
  executes p jobs es s ->
  totcnt s + results_in (uncounted p s) = results_in (flat_map (result_of p) jobs) /\
  meancnt s + dicts_in (uncounted p s) = dicts_in (flat_map (result_of p) jobs).
Proof.
  intros X. destruct (run_counts p es (init p jobs) s X) as [A B]. rewrite init_counts in A, B. cbn [init meancnt totcnt] in A, B.
  assert (FM : forall (f : @msg Row -> nat) g (l : list Job), (forall m, List.length (filter g [m]) = f m) -> List.length (filter g (flat_map (result_of p) l)) = sumf (fun j => sumf f (worker_put (what p j))) l).
  { intros f g l E. induction l as [|j l IH]; [reflexivity|]. cbn [flat_map sumf]. rewrite filter_app, app_length, IH. f_equal. unfold result_of, worker_put. destruct (what p j); cbn [sumf]; rewrite ?E; [reflexivity|lia|lia]. }
  assert (FC : forall (f : @msg Row -> nat) g (l : list (@comb Row)), (forall m, List.length (filter g [m]) = f m) -> List.length (filter g (flat_map held l)) = sumf (cwt f) l).
  { intros f g l E. induction l as [|x l IH]; [reflexivity|]. cbn [flat_map sumf]. rewrite filter_app, app_length, IH. f_equal. unfold held, cwt. destruct (c_pc x); try reflexivity. apply E. }
  assert (FQ : forall (f : @msg Row -> nat) g (l : list (@msg Row)), (forall m, List.length (filter g [m]) = f m) -> List.length (filter g l) = sumf f l).
  { intros f g l E. induction l as [|m l IH]; [reflexivity|]. change (m :: l) with ([m] ++ l)%list. rewrite filter_app, app_length, E, IH. reflexivity. }
  assert (E1 : forall m : @msg Row, List.length (filter (fun m => match m with MBad => false | _ => true end) [m]) = notbad m) by (intros []; reflexivity).
  assert (E2 : forall m : @msg Row, List.length (filter (fun m => match m with MDict _ => true | _ => false end) [m]) = isdict m) by (intros []; reflexivity).
  unfold results_in, dicts_in, uncounted. rewrite !filter_app, !app_length, (FQ _ _ _ E1), (FC _ _ _ E1), (FM _ _ jobs E1), (FM _ _ _ E1), (FQ _ _ _ E2), (FC _ _ _ E2), (FM _ _ jobs E2), (FM _ _ _ E2), !sumf_app.
  unfold pending in A, B. lia.
Qed.
Print Assumptions C49_counters_exact.

Theorem C49_counters_final (Job Row : Type) (p : @params Job Row) (jobs : list Job) (kind : string -> bool) (es : list event) (s : state) :
  1 <= n_combiner p -> (forall j, In j jobs -> good_task kind (what p j)) ->
  undisturbed es -> executes p jobs es s -> main s = PEnd ->
  totcnt s = total (queued p) jobs /\ meancnt s = total (dicts p) jobs.
Proof.
  intros Nc GT U X M. destruct (good_run p jobs kind GT es (init p jobs) s (good_init p jobs kind) U X) as [G _].
  destruct (run_counts p es (init p jobs) s X) as [A B]. rewrite init_counts in A, B. cbn [init meancnt totcnt] in A, B. rewrite !total_sumf.
  assert (M' : main s <> PRun) by congruence. destruct (g_main _ _ _ s G M') as [T R].
  assert (C : forall x, In x (combs s) -> cdone x) by (apply (g_joinw _ _ _ s G); auto).
  assert (Z : queue s = []).
  { assert (L := g_nc _ _ _ s G). destruct (combs s) as [|x l] eqn:E; [cbn in L; lia|].
    apply (g_leave _ _ _ s G x); [rewrite E; left; reflexivity|]. right. apply C. left; reflexivity. }
  assert (P0 : forall f, pending f p s = 0).
  { intros f. unfold pending. rewrite T, R, Z. cbn. clear - C. induction (combs s) as [|x l IH]; [reflexivity|]. cbn.
    rewrite IH by (intros; apply C; right; assumption). unfold cwt. rewrite (C x (or_introl eq_refl)). reflexivity. }
  rewrite !P0 in *.
  assert (Q : sumf (fun j => sumf notbad (worker_put (what p j))) jobs = sumf (queued p) jobs).
  { apply sumf_ext. intros j Hj. assert (TT := GT j Hj). unfold queued. destruct (what p j) as [| |[]]; cbn in *; tauto. }
  assert (D : sumf (fun j => sumf isdict (worker_put (what p j))) jobs = sumf (dicts p) jobs).
  { apply sumf_ext. intros j _. unfold dicts. destruct (what p j) as [| |[]]; reflexivity. }
  lia.
Qed.
Print Assumptions C49_counters_final.
Example C49_example : exists s, executes ex_params [0; 1] ex_events s /\ totcnt s = 2 /\ meancnt s = 1 /\
  total (queued ex_params) [0; 1] = 2 /\ total (dicts ex_params) [0; 1] = 1.
Proof. eexists. split; [vm_compute; reflexivity|]. repeat split. Qed.

(** ** C50 *)
(** the key a constant layer is stored under *)
Theorem C50_safe_names {Row : Type} (n : string) (v : @value Row) :
  safe_name n <-> entry_keys ("const__" ++ n, Leaf v) = [(n, v)].
Proof.
  assert (E : entry_keys ("const__" ++ n, Leaf v) = [(lstrip_chars "const__" ("const__" ++ n), v)]) by (unfold entry_keys; rewrite Str_Proofs.startswith_app; reflexivity).
  rewrite E. split.
  - intros S. rewrite lstrip_safe by exact S. reflexivity.
  - intros H. assert (Z : lstrip_chars "const__" n = n).
    { assert (Q : lstrip_chars "const__" ("const__" ++ n) = n) by congruence. exact Q. }
    destruct n as [|c n]; [exact I|]. cbn [safe_name]. intros Hc.
    assert (B : existsb (Ascii.eqb c) (list_ascii_of_string "const__") = true).
    { apply existsb_exists. exists c. split; [|apply Ascii.eqb_refl]. cbn in Hc |- *. tauto. }
    cbn [lstrip_chars] in Z. rewrite B in Z.
    assert (L : forall s, String.length (lstrip_chars "const__" s) <= String.length s).
    { clear. induction s as [|a s IH]; [apply le_n|]. cbn [lstrip_chars String.length].
      destruct (existsb (Ascii.eqb a) (list_ascii_of_string "const__")); [lia|]. apply le_n. }
    specialize (L n). rewrite Z in L. cbn [String.length] in L. lia.
Qed.
Print Assumptions C50_safe_names.
Example C50_example : safe_name "reader_arg" /\ entry_keys ("const__reader_arg", Leaf (Frame [1])) = [("reader_arg", Frame [1])].
Proof. split; [cbn; intuition discriminate|reflexivity]. Qed.

(** a task returning {"const__count": table} runs undisturbed to the end, and
    its table is stored under "unt" *)
Definition c50_params : @params nat nat := mkparams 1 1 1 1 1 (fun _ => Returns (MDict [("const__count", Leaf (Frame [7]))])).
Definition c50_events : list event :=
  (ex_start ++ ex_combine ++ [SStep 0; SStep 0; Main; CStep 0; CStep 0; Main; SStep 0; Main])%list.
Theorem C50_refuted : exists (p : @params nat nat) (jobs : list nat) (es : list event) (s : state) (n : string) (rows : list nat),
  undisturbed es /\ executes p jobs es s /\ main s = PEnd /\
  (forall j, what p j = Returns (MDict [("const__" ++ n, Leaf (Frame rows))])) /\ rows <> [] /\
  store s <> [] /\ ~ (exists r, In (n, r) (store s)).
Proof.
  exists c50_params, [0], c50_events. eexists. exists "count", [7].
  split; [split; [|intros w]; cbn; intros H; repeat (destruct H as [H|H]; [discriminate|]); exact H|].
  split; [vm_compute; reflexivity|]. split; [reflexivity|]. split; [reflexivity|]. split; [discriminate|].
  split; [discriminate|]. cbn. intros [r [H|[]]]. inversion H.
Qed.
Print Assumptions C50_refuted.

(** ** C51 *)
(** the processing is stuck for ever: no continuation ends it *)
Definition stuck {Job Row} (p : @params Job Row) (s : state) : Prop :=
  forall es s', run p es s = Some s' -> main s' <> PEnd.

Theorem C51_refuted : exists (p : @params nat nat) (jobs : list nat) (es : list event) (s : state),
  1 <= n_worker p /\ 1 <= n_combiner p /\ 1 <= n_writer p /\ 1 <= chunk p /\ 1 <= cache p /\
  (forall j, In j jobs -> good_task ex_kind (what p j)) /\
  ~ In Signal es /\ (exists w, In (SFail w) es) /\ executes p jobs es s /\ stuck p s.
Proof.
  exists ex_params, [0; 1], (ex_start ++ ex_combine ++ [SFail 0; SStep 0; SStep 0])%list. eexists.
  do 5 (split; [cbn; lia|]). split; [exact ex_good|].
  split; [cbn; intros H; repeat (destruct H as [H|H]; [discriminate|]); exact H|].
  split; [exists 0; cbn; tauto|]. split; [vm_compute; reflexivity|].
  intros es s' H. assert (Z : Hang s').
  { eapply hang_forever; [|exact H]. split; [reflexivity|]. split; [discriminate|]. split; [reflexivity|]. intros w [<-|[]]. reflexivity. }
  destruct Z as (M & _). congruence.
Qed.
Print Assumptions C51_refuted.

(** what holds: the processing hangs for good as soon as tasks are left, no
    new task may start and the writers are gone; ... *)
Theorem C51_when_stuck (Job Row : Type) (p : @params Job Row) (s : state) :
  main s = PRun -> todo s <> [] -> should_wait s = false -> (forall w, In w (writers s) -> w = WDone) -> stuck p s.
Proof.
  intros M T W D es s' H. assert (Z : Hang s') by (eapply hang_forever; [|exact H]; repeat split; assumption).
  destruct Z as (Z & _). congruence.
Qed.
Print Assumptions C51_when_stuck.

(** ... after a failed write (of any batch, with any task results) it can
    still finish if every task has already been started *)
Theorem C51_all_started_partial (Job Row : Type) (p : @params Job Row) (jobs : list Job) (es : list event) (s : state) :
  executes p jobs es s -> stop_ s = true -> todo s = [] ->
  exists es' s', undisturbed es' /\ run p es' s = Some s' /\ main s' = PEnd.
Proof.
  intros X S T. destruct (stopped_can_finish p s S T) as (s' & (es' & U & R) & M). exists es', s'. auto.
Qed.
Print Assumptions C51_all_started_partial.
Example C51_example : exists s,
  executes ex_params [0] (ex_start ++ ex_combine ++ [SFail 0; SStep 0; SStep 0])%list s /\ stop_ s = true /\ todo s = [].
Proof. eexists. split; [vm_compute; reflexivity|]. split; reflexivity. Qed.

(** ** C52 *)
(** on restart an ID is skipped if its row is in the table [ra]; a killed
    process leaves the store of the state it was in *)
Definition skipped {Job Row} (p : @params Job Row) (ra : string) (st : list (string * Row)) (j : Job) : Prop :=
  exists x, In (ra, x) (job_rows p j) /\ In (ra, x) st.

Theorem C52_refuted : exists (p : @params nat nat) (jobs : list nat) (es : list event) (s : state) (j : nat),
  undisturbed es /\ executes p jobs es s /\ (forall j, In j jobs -> good_task ex_kind (what p j)) /\
  In j jobs /\ skipped p "reader_arg" (store s) j /\ ~ incl (job_rows p j) (store s).
Proof.
  exists ex_params, [0; 1], (ex_start ++ ex_combine ++ [SStep 0])%list. eexists. exists 0.
  split; [split; [|intros w]; cbn; intros H; repeat (destruct H as [H|H]; [discriminate|]); exact H|].
  split; [vm_compute; reflexivity|]. split; [exact ex_good|]. split; [left; reflexivity|]. split.
  - exists 10. split; left; reflexivity.
  - intros H. assert (Z := H ("a/x", 11)). cbn in Z. destruct Z as [Z|[]]; [tauto|]. inversion Z.
Qed.
Print Assumptions C52_refuted.

(** it would hold if every result had the same layers, the skip-table last *)
Theorem C52_table_last (Job Row : Type) (p : @params Job Row) (jobs : list Job) (kind : string -> bool) (ra : string) (ks : list string)
    (es : list event) (s : state) (j : Job) :
  (forall j, In j jobs -> good_task kind (what p j)) ->
  NoDup (ks ++ [ra]) ->
  (forall j r, In j jobs -> what p j = Returns (MDict r) -> map fst (layers r) = (ks ++ [ra])%list) ->
  (forall j1 j2 x, In j1 jobs -> In j2 jobs -> In (ra, x) (job_rows p j1) -> In (ra, x) (job_rows p j2) -> j1 = j2) ->
  undisturbed es -> executes p jobs es s -> In j jobs ->
  skipped p ra (store s) j -> incl (job_rows p j) (store s).
Proof.
  intros GT KN KO ID U X Hj (x & H1 & H2).
  assert (K := crash_run p jobs kind ra ks GT KN KO es (init p jobs) s (good_init p jobs kind) (crash_init p jobs ra ks) U X).
  destruct (k_store _ _ _ _ s K x H2) as (j' & Hj' & H3 & H4). rewrite (ID j j' x); assumption.
Qed.
Print Assumptions C52_table_last.
Definition c52_result : @result nat := [("a", Sub [("x", Frame [11; 12])]); ("const__reader_arg", Leaf (Frame [10]))].
Definition c52_params : @params nat nat :=
  mkparams 1 1 1 1 1 (fun j => match j with 0 => Returns (MDict c52_result) | _ => Raises end).
Example C52_example : exists s,
  executes c52_params [0; 1] (ex_start ++ ex_combine ++ [SStep 0; SStep 0])%list s /\
  skipped c52_params "reader_arg" (store s) 0 /\ map fst (layers c52_result) = (["a/x"] ++ ["reader_arg"])%list /\
  NoDup (["a/x"] ++ ["reader_arg"]).
Proof.
  eexists. split; [vm_compute; reflexivity|]. split; [exists 10; cbn; tauto|]. split; [reflexivity|].
  constructor; [intros [H|[]]; discriminate|]. constructor; [intros []|constructor].
Qed.

(** ** C90 *)
Theorem C90_can_finish (Job Row : Type) (p : @params Job Row) (jobs : list Job) (kind : string -> bool) (es : list event) (s : state) :
  1 <= n_worker p -> 1 <= n_combiner p -> 1 <= n_writer p -> 1 <= chunk p -> 1 <= cache p ->
  (forall j, In j jobs -> good_task kind (what p j)) ->
  undisturbed es -> executes p jobs es s ->
  exists es' s', undisturbed es' /\ run p es' s = Some s' /\ main s' = PEnd /\
    Permutation (store s') (flat_map (job_rows p) jobs).
Proof.
  intros PW PC PS CH CA GT U X. assert (G := proj1 (good_run p jobs kind GT es _ s (good_init p jobs kind) U X)).
  assert (F : flags s). { apply (flags_run p es (init p jobs)); [exact U| |exact X]. split; cbn; congruence. }
  destruct (can_finish p jobs kind GT PW PC PS CH CA s G F) as (s' & (es' & U' & R) & M).
  exists es', s'. split; [exact U'|]. split; [exact R|]. split; [exact M|].
  apply (C48_exactly_once Job Row p jobs kind (es ++ es')); try assumption.
  - destruct U as [U1 U2], U' as [V1 V2]. split; [|intros w]; intros H; apply in_app_or in H; destruct H; firstorder.
  - unfold executes in *. rewrite run_app, X. exact R.
Qed.
Print Assumptions C90_can_finish.
Example C90_example : exists s, executes ex_params [0; 1] (ex_start ++ ex_combine)%list s /\ main s = PRun /\ locked s = true.
Proof. eexists. split; [vm_compute; reflexivity|]. split; reflexivity. Qed.

(** without a place in the output cache nothing is ever processed *)
Theorem C90_needs_cache : exists (p : @params nat nat) (jobs : list nat),
  1 <= n_worker p /\ 1 <= n_combiner p /\ 1 <= n_writer p /\ 1 <= chunk p /\ cache p = 0 /\ jobs <> [] /\
  forall es s, executes p jobs es s -> main s = PRun.
Proof.
  exists (mkparams 1 1 1 1 0 ex_what), [0]. do 4 (split; [cbn; lia|]). split; [reflexivity|]. split; [discriminate|].
  assert (I : forall es (s s' : @state nat nat), run (mkparams 1 1 1 1 0 ex_what) es s = Some s' ->
     (main s = PRun /\ todo s <> [] /\ should_wait s = false) -> main s' = PRun /\ todo s' <> [] /\ should_wait s' = false).
  { induction es as [|e es IH]; intros s s' H Z; cbn [run] in H; [inversion H; subst; exact Z|].
    destruct (step _ e s) as [s1|] eqn:E; [|discriminate]. apply (IH s1 s' H). clear IH H. destruct Z as (M & T & W). destruct e; cbn [step] in E.
    - rewrite W in E. destruct (nth_error (todo s) i); discriminate.
    - destruct (nth_error (running s) i); inversion E; subst; auto.
    - destruct (nth_error (combs s) c) as [x|]; [|discriminate]. unfold comb_step in E. destruct (c_pc x) as [| | |[]| |].
      + destruct (should_stop s && isnil (queue s)); inversion E; subst; auto.
      + destruct (stop_ s); inversion E; subst; auto.
      + destruct (Nat.ltb (c_n x) _); [destruct (queue s)|]; inversion E; subst; auto.
      + inversion E; subst; auto.
      + inversion E; subst; auto.
      + inversion E; subst; auto.
      + destruct (isnil (c_thr x)); inversion E; subst; auto.
      + discriminate.
    - destruct (nth_error (combs s) c) as [x|]; [|discriminate]. destruct (c_pc x); try discriminate. destruct (Nat.ltb _ _); inversion E; subst; auto.
    - destruct (nth_error (combs s) c) as [x|]; [|discriminate]. destruct (nth_error (c_thr x) i) as [rs|]; [|discriminate].
      destruct (combine_results rs); inversion E; subst; auto.
    - destruct (nth_error (writers s) w) as [x|]; [|discriminate]. unfold writer_step in E.
      destruct x as [| | | |b|[|[k [rows|]] b]|]; try discriminate.
      + destruct (ready s && isnil (outq s)); inversion E; subst; auto.
      + destruct (stop_ s); inversion E; subst; auto.
      + inversion E; subst; cbn. rewrite Nat.ltb_irrefl || (replace (Nat.ltb (List.length (outq s)) 0) with false by (symmetry; apply Nat.ltb_ge; lia)). auto.
      + destruct (outq s); inversion E; subst; auto.
      + destruct (locked s); inversion E; subst; auto.
      + inversion E; subst; auto.
      + inversion E; subst; auto.
      + inversion E; subst; auto.
    - destruct (nth_error (writers s) w) as [[]|]; inversion E; subst; auto.
    - destruct (nth_error (writers s) w) as [[]|]; inversion E; subst; auto.
    - rewrite M in E. destruct (todo s) eqn:Et; [congruence|]. discriminate.
    - rewrite M in E. inversion E; subst; auto. }
  intros es s X. apply (I es (init (mkparams 1 1 1 1 0 ex_what) [0]) s X). split; [reflexivity|]. split; [discriminate|reflexivity].
Qed.
Print Assumptions C90_needs_cache.
