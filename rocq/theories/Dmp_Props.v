(** C121-C122: dumping and loading fit objects *)
From Coq Require Import String Bool Arith List.
From Verif Require Import Base Base_Proofs Ids_Model Dmp_Model Dmp_Spec Dmp_Proofs.
Import ListNotations.
Local Open Scope string_scope.
Local Open Scope list_scope.

(** ** C121 *)
(** [dump] leaves the object as it is (up to the version number), and the loaded object has the same attributes; with
    mini=True up to the functions of the interaction term and the details of the optimisation. *)
Theorem C121_roundtrip : forall V (version plots two backend true_ : av V) mini stem (d : fobj V), current d -> version <> ANone ->
  exists d' st, dump version true mini d = (d', Ok st) /\ same_but ["_RT1_version"] d d' /\
  attr (load plots two backend true_ stem st) "_RT1_version" = Some version /\
  same_but (if mini then ["_fnevals_input"; "fit_output"] else []) d' (load plots two backend true_ stem st).
Proof.
  intros V version plots two backend true_ mini stem d H Hv. exists (set "_RT1_version" version d).
  assert (H1 : current (set "_RT1_version" version d)) by (apply current_set; [exact H|auto|simpl; auto]).
  destruct mini; eexists.
  - split; [apply mark_getstate_mini; auto|]. split; [apply version_same|]. rewrite load_current by (apply current_mini; exact H1).
    split; [rewrite (mini_same _ "_RT1_version") by (simpl; intuition discriminate); apply attr_set_eq|apply mini_same].
  - split; [apply mark_getstate_full; auto|]. split; [apply version_same|]. rewrite load_current by exact H1.
    split; [apply attr_set_eq|]. intros k _. reflexivity.
Qed.
Print Assumptions C121_roundtrip.

(** what remains of an object after dumping it and loading the file *)
Definition cycle {V} (version plots two backend true_ : av V) (d : fobj V) (c : bool * string) : fobj V :=
  match snd (dump version true (fst c) d) with Ok st => load plots two backend true_ (snd c) st | Err _ => [] end.

(** The same for any number of dumps. *)
Theorem C121_cycles : forall V (version plots two backend true_ : av V) (cs : list (bool * string)) (d : fobj V), current d -> version <> ANone ->
  current (fold_left (cycle version plots two backend true_) cs d) /\
  same_but ["_RT1_version"; "_fnevals_input"; "fit_output"] d (fold_left (cycle version plots two backend true_) cs d) /\
  (forall k, (forall c, In c cs -> fst c = false) -> k <> "_RT1_version" ->
     attr (fold_left (cycle version plots two backend true_) cs d) k = attr d k).
Proof.
  intros V version plots two backend true_ cs d H Hv. revert d H.
  induction cs as [|[mini stem] cs IH]; intros d H; cbn [fold_left].
  - split; [exact H|]. split; [intros k _; reflexivity|reflexivity].
  - assert (H1 : current (set "_RT1_version" version d)) by (apply current_set; [exact H|auto|simpl; auto]).
    destruct mini.
    + assert (E : cycle version plots two backend true_ d (true, stem) = mini_state (set "_RT1_version" version d)).
      { unfold cycle. cbn [fst snd]. rewrite mark_getstate_mini by auto. apply load_current, current_mini, H1. }
      rewrite E. destruct (IH _ (current_mini _ H1)) as (C & S & F). split; [exact C|]. split.
      * intros k Hk. rewrite (S k Hk). rewrite (mini_same _ k) by (intros Hi; apply Hk; simpl in *; tauto).
        apply version_same. intros Hi; apply Hk; simpl in *; tauto.
      * intros k Hc. exfalso. specialize (Hc (true, stem) (or_introl eq_refl)). discriminate.
    + assert (E : cycle version plots two backend true_ d (false, stem) = set "_RT1_version" version d).
      { unfold cycle. cbn [fst snd]. rewrite mark_getstate_full by auto. apply load_current, H1. }
      rewrite E. destruct (IH _ H1) as (C & S & F). split; [exact C|]. split.
      * intros k Hk. rewrite (S k Hk). apply version_same. intros Hi; apply Hk; simpl in *; tauto.
      * intros k Hc Hk. rewrite F; [|intros c Hi; apply Hc; right; exact Hi|exact Hk]. apply version_same. simpl. intros [Hi|[]]. congruence.
Qed.
Print Assumptions C121_cycles.

(** a fit with results of the optimisation *)
Definition fit1 : fobj nat :=
  [("plot", AV 1); ("verbose", AV 2); ("lsq_kwargs", ADict []); ("int_Q", AV 3); ("lambda_backend", AV 4); ("_fnevals_input", AV 5);
   ("_dataset", AV 6); ("_ID", AStr "a1"); ("res_dict", ADict [("omega", AList [AV 7; AV 8])]);
   ("fit_output", AOut [("success", AV 1); ("status", AV 2); ("optimality", AV 0); ("fun", AV 9)])].
Lemma fit1_current : current fit1.
Proof.
  split; [repeat constructor; simpl; intuition discriminate|]. split.
  - intros k Hk. simpl in Hk. repeat (destruct Hk as [<-|Hk]; [vm_compute; discriminate|]). destruct Hk.
  - split; [eexists; reflexivity|]. split; [reflexivity|]. split; [reflexivity|].
    intros rd E k v Hi. vm_compute in E. injection E as <-. destruct Hi as [Hi|[]]. injection Hi as <- <-.
    eexists. split; [reflexivity|]. intros x [<-|[<-|[]]]; eexists; reflexivity.
Qed.
Example C121_example : current fit1 /\ exists d' st, dump (AV 10) true true fit1 = (d', Ok st) /\
  attr (load (AV 1) (AV 2) (AV 4) (AV 3) "file" st) "res_dict" = Some (ADict [("omega", AList [AV 7; AV 8])]) /\
  attr (load (AV 1) (AV 2) (AV 4) (AV 3) "file" st) "fit_output" = Some (ADict [("fit_success", AV 1); ("fit_status", AV 2); ("fit_optimality", AV 0)]).
Proof. split; [exact fit1_current|]. eexists. eexists. split; [reflexivity|]. split; reflexivity. Qed.

(** The same for MultiFits objects: every config. *)
Theorem C121_multi : forall V (plots two backend true_ : av V) mini (m : list (string * fobj V)),
  (forall c, In c m -> current (snd c) /\ attr (snd c) "config_name" <> None) ->
  exists st m', dump_multi true mini m = (m, Ok st) /\ load_multi plots two backend true_ st = Ok m' /\ map fst m' = map fst m /\
  forall n, (n < length m)%nat -> exists c d', nth_error m n = Some c /\ nth_error m' n = Some (fst c, d') /\
    same_but (if mini then ["_fnevals_input"; "fit_output"] else []) (snd c) d'.
Proof.
  intros V plots two backend true_ mini m Hm. set (st := map (fun c => (fst c, if mini then mini_state (snd c) else snd c)) m). exists st, st. unfold dump_multi. rewrite !map_map. cbn [fst snd].
  assert (G : forall d : fobj V, current d ->
    getstate (if mini then set "_rt1_dump_mini" (AStr "True") d else del "_rt1_dump_mini" d) = (d, if mini then mini_state d else d)).
  { intros d H. pose proof H as (ND & _ & _ & _ & MK & _). destruct mini.
    - unfold getstate. rewrite has_key_attr by (rewrite attr_set_eq; discriminate). rewrite set_del by auto. reflexivity.
    - rewrite del_none by exact MK. apply getstate_current. exact H. }
  assert (L : forall d : fobj V, current d -> setstate plots two backend true_ d = d).
  { intros d H. unfold setstate. destruct H as (ND & K & R). rewrite has_key_attr by (apply K; simpl; tauto). apply update_current. split; auto. }
  split; [|split].
  { f_equal; [|f_equal].
    - transitivity (map (fun c : string * fobj V => c) m); [|apply map_id]. apply map_ext_in. intros [k d] Hi. destruct (Hm _ Hi) as [H _]. cbn [fst snd] in *. rewrite G by exact H. reflexivity.
    - apply map_ext_in. intros [k d] Hi. destruct (Hm _ Hi) as [H _]. cbn [fst snd] in *. rewrite G by exact H. reflexivity. }
  { unfold load_multi, st. clear st. clear - Hm L. induction m as [|[k d] m IH]; [reflexivity|]. cbn [map mapM fst snd].
    destruct (Hm (k, d) (or_introl eq_refl)) as [H Hc]. cbn [snd] in *. rewrite L by (destruct mini; [apply current_mini|]; exact H).
    rewrite has_key_attr; [|destruct mini; [rewrite (mini_same _ "config_name") by (simpl; intuition discriminate)|]; exact Hc]. cbn [bind]. rewrite IH by (intros c Hi; apply Hm; now right). reflexivity. }
  unfold st. rewrite map_map. cbn [fst]. split; [reflexivity|]. intros n Hn.
  destruct (nth_error m n) as [c|] eqn:E; [|apply nth_error_None in E; exfalso; apply (Nat.lt_irrefl n); eapply Nat.lt_le_trans; eauto].
  exists c. eexists. split; [reflexivity|]. split; [rewrite nth_error_map, E; reflexivity|].
  destruct mini; [apply mini_same|intros k _; reflexivity].
Qed.
Print Assumptions C121_multi.

Example C121_example_multi : exists st, dump_multi true true [("a", set "config_name" (AStr "a") fit1)] = ([("a", set "config_name" (AStr "a") fit1)], Ok st) /\
  exists m', load_multi (AV 1) (AV 2) (AV 4) (AV 3) st = Ok m' /\ map fst m' = ["a"].
Proof. eexists. split; [reflexivity|]. eexists. split; reflexivity. Qed.

(** A dump that fails does not affect a later dump without mini: everything is stored. *)
Theorem C121_after_failure : forall V (version : av V) mini (d : fobj V), current d ->
  exists d1, dump version false mini d = (d1, Err RuntimeError) /\
  exists d2 st, dump version true false d1 = (d2, Ok st) /\ same_but ["_RT1_version"] d d2 /\ same_but ["_RT1_version"] d st.
Proof.
  intros V version mini d H. pose proof H as (ND & _ & _ & _ & MK & _). eexists. split; [reflexivity|].
  assert (ND1 : NoDup (map fst (mark version mini d))).
  { unfold mark. destruct mini; [apply nodup_set|apply nodup_del]; apply nodup_set; exact ND. }
  assert (S : same_but ["_RT1_version"] d (mark version false (mark version mini d))).
  { intros k Hk. assert (Hv : k <> "_RT1_version") by (intros ->; apply Hk; left; reflexivity). unfold mark at 1.
    destruct (string_dec k "_rt1_dump_mini") as [->|Hm].
    - rewrite attr_del_eq by (apply nodup_set; exact ND1). symmetry. exact MK.
    - rewrite attr_del_ne by exact Hm. rewrite attr_set_ne by exact Hv. unfold mark.
      destruct mini; [rewrite attr_set_ne by exact Hm | rewrite attr_del_ne by exact Hm]; apply attr_set_ne; exact Hv. }
  assert (U : has_key "_rt1_dump_mini" (mark version false (mark version mini d)) = false).
  { apply has_key_none. unfold mark at 1. apply attr_del_eq, nodup_set, ND1. }
  unfold dump. unfold getstate. rewrite U. eexists. eexists. split; [reflexivity|]. split; exact S.
Qed.
Print Assumptions C121_after_failure.

(** States of old versions: the dataset is found under its new name, ... *)
Theorem C121_old_dataset : forall V (plots two backend true_ : av V) stem (st : fobj V) v,
  NoDup (map fst st) -> attr st "_dataset" = None -> attr st "dataset" = Some v ->
  attr (load plots two backend true_ stem st) "_dataset" = Some v /\
  attr (load plots two backend true_ stem st) "dataset" = None.
Proof.
  intros V plots two backend true_ stem st v ND N D.
  assert (E : forall k, ~ In k ("_ID" :: update_keys) -> attr (load plots two backend true_ stem st) k = attr (set "_dataset" v (del "dataset" st)) k).
  { intros k Hk. unfold load, setstate. rewrite has_key_none by exact N. assert (G : get "dataset" st = Some v) by exact D. rewrite !G.
    transitivity (attr (update plots two backend true_ (set "_dataset" v (del "dataset" st))) k).
    - destruct (get "_ID" _) as [[]|]; try reflexivity; apply attr_set_ne; intros ->; apply Hk; left; reflexivity.
    - apply update_same. intro Hi. apply Hk. right. exact Hi. }
  rewrite !E by (simpl; intuition discriminate). rewrite attr_set_eq. split; [reflexivity|].
  rewrite attr_set_ne by discriminate. apply attr_del_eq. exact ND.
Qed.
Print Assumptions C121_old_dataset.

(** ... the results are converted exactly if all of them are pairs of a list of values and something else. *)
Theorem C121_old_results : forall V (plots two backend true_ : av V) stem (st : fobj V) rd,
  NoDup (map fst st) -> attr st "_dataset" <> None -> attr st "res_dict" = Some (ADict rd) ->
  ((forall k v, In (k, v) rd -> exists x y, v = AList [AList x; y]) ->
   exists rd', attr (load plots two backend true_ stem st) "res_dict" = Some (ADict rd') /\
     Forall2 (fun a b => fst b = fst a /\ exists x y, snd a = AList [AList x; y] /\ snd b = AList x) rd rd') /\
  ((exists k v, In (k, v) rd /\ ~ exists x y, v = AList [AList x; y]) ->
   attr (load plots two backend true_ stem st) "res_dict" = Some (ADict rd)).
Proof.
  intros V plots two backend true_ stem st rd ND N D.
  assert (E : attr (load plots two backend true_ stem st) "res_dict" = Some (ADict (if old_shape rd then new_shape rd else rd))).
  { unfold load, setstate. rewrite has_key_attr by exact N.
    transitivity (attr (update plots two backend true_ st) "res_dict").
    - destruct (get "_ID" _) as [[]|]; try reflexivity; apply attr_set_ne; discriminate.
    - apply update_results. exact D. }
  rewrite E. clear - V. split.
  - intros H. exists (if old_shape rd then new_shape rd else rd). split; [reflexivity|].
    assert (O : old_shape rd = true).
    { unfold old_shape. apply forallb_forall. intros [k v] Hi. destruct (H k v Hi) as (x & y & ->). reflexivity. }
    rewrite O. clear O. unfold new_shape. induction rd as [|[k v] rd IH]; constructor.
    + cbn. split; [reflexivity|]. destruct (H k v (or_introl eq_refl)) as (x & y & ->). exists x, y. auto.
    + apply IH. intros k' v' Hi. apply (H k' v'). right; exact Hi.
  - intros (k & v & Hi & Hn). assert (O : old_shape rd = false).
    { destruct (old_shape rd) eqn:O; [|reflexivity]. exfalso. apply Hn. unfold old_shape in O. rewrite forallb_forall in O.
      specialize (O _ Hi). cbn in O. destruct v as [| | | |[|[] [|y []]]|]; try discriminate. eauto. }
    rewrite O. reflexivity.
Qed.
Print Assumptions C121_old_results.

Example C121_example_old :
  attr (load (AV 1) (AV 2) (AV 4) (AV 3) "f" [("dataset", AV 6)]) "_dataset" = Some (AV 6) /\
  attr (load (AV 1) (AV 2) (AV 4) (AV 3) "f" [("_dataset", AV 6); ("res_dict", ADict [("omega", AList [AList [AV 7]; AV 8])])]) "res_dict"
    = Some (ADict [("omega", AList [AV 7])]).
Proof. split; reflexivity. Qed.

(** ** C122 *)
(** success, status and optimality are kept by dump(mini=True) ... *)
Theorem C122_kept : forall V (version plots two backend true_ : av V) stem (d : fobj V) attrs key v, current d -> version <> ANone ->
  attr d "fit_output" = Some (AOut attrs) -> In key ["success"; "status"; "optimality"] -> dget string_dec key attrs = Some v ->
  exists d' st props, dump version true true d = (d', Ok st) /\
  attr (load plots two backend true_ stem st) "fit_output" = Some (ADict props) /\ dget string_dec ("fit_" ++ key)%string props = Some v.
Proof.
  intros V version plots two backend true_ stem d attrs key v H Hv Ho Hk Ha.
  assert (H1 : current (set "_RT1_version" version d)) by (apply current_set; [exact H|auto|simpl; auto]).
  do 2 eexists. exists (fit_props (set "_RT1_version" version d)). split; [apply mark_getstate_mini; auto|].
  rewrite load_current by (apply current_mini; exact H1). split; [apply attr_set_eq|].
  unfold fit_props. assert (E : get "fit_output" (set "_RT1_version" version d) = Some (AOut attrs)).
  { change (attr (set "_RT1_version" version d) "fit_output" = Some (AOut attrs)). rewrite attr_set_ne by discriminate. exact Ho. }
  rewrite E. cbn [flat_map out_attr]. unfold get.
  destruct (dget string_dec "success" attrs) as [v1|] eqn:E1, (dget string_dec "status" attrs) as [v2|] eqn:E2, (dget string_dec "optimality" attrs) as [v3|] eqn:E3;
    simpl in Hk; destruct Hk as [<-|[<-|[<-|[]]]]; cbn; congruence.
Qed.
Print Assumptions C122_kept.

(** ... but not by the second one: a fit that was loaded and is dumped again loses them. *)
Theorem C122_second_refuted : forall V (version plots two backend true_ : av V) s1 s2 (d : fobj V) attrs, current d -> version <> ANone ->
  attr d "fit_output" = Some (AOut attrs) ->
  attr (fold_left (cycle version plots two backend true_) [(true, s1); (true, s2)] d) "fit_output" = Some (ADict []).
Proof.
  intros V version plots two backend true_ s1 s2 d attrs H Hv Ho.
  assert (H1 : current (set "_RT1_version" version d)) by (apply current_set; [exact H|auto|simpl; auto]).
  cbn [fold_left]. unfold cycle at 2. cbn [fst snd]. rewrite mark_getstate_mini by auto. cbn [snd].
  rewrite load_current by (apply current_mini; exact H1).
  set (e := mini_state _). assert (He : current e) by (apply current_mini; exact H1).
  assert (H2 : current (set "_RT1_version" version e)) by (apply current_set; [exact He|auto|simpl; auto]).
  unfold cycle. cbn [fst snd]. rewrite mark_getstate_mini by auto. cbn [snd]. rewrite load_current by (apply current_mini; exact H2).
  unfold mini_state. rewrite attr_set_eq. do 2 f_equal. unfold fit_props.
  assert (E : get "fit_output" (set "_RT1_version" version e) = Some (ADict (fit_props (set "_RT1_version" version d)))).
  { change (attr (set "_RT1_version" version e) "fit_output" = Some (ADict (fit_props (set "_RT1_version" version d)))).
    rewrite attr_set_ne by discriminate. apply attr_set_eq. }
  rewrite E. reflexivity.
Qed.
Print Assumptions C122_second_refuted.

(** If the file cannot be written, the object stays marked: the next copy of it (deepcopy, a worker process) has
    lost the functions of the interaction term and the results of the optimisation. *)
Theorem C122_failed_refuted : forall V (version : av V) (d : fobj V), current d ->
  exists d', dump version false true d = (d', Err RuntimeError) /\ attr (snd (pickle d')) "_fnevals_input" = Some ANone /\
  (exists props, attr (snd (pickle d')) "fit_output" = Some (ADict props)).
Proof.
  intros V version d H. eexists. split; [reflexivity|]. unfold pickle, getstate, mark.
  rewrite has_key_attr by (rewrite attr_set_eq; discriminate). cbn [snd].
  split; [rewrite attr_set_ne by discriminate; apply attr_set_eq|]. eexists. apply attr_set_eq.
Qed.
Print Assumptions C122_failed_refuted.

Example C122_example : attr (fold_left (cycle (AV 10) (AV 1) (AV 2) (AV 4) (AV 3)) [(true, "a")] fit1) "fit_output" =
    Some (ADict [("fit_success", AV 1); ("fit_status", AV 2); ("fit_optimality", AV 0)]) /\
  attr (fold_left (cycle (AV 10) (AV 1) (AV 2) (AV 4) (AV 3)) [(true, "a"); (true, "a")] fit1) "fit_output" = Some (ADict []).
Proof. split; reflexivity. Qed.
