From Coq Require Import ZArith Bool Lia Permutation Sorted Arith List.
From Verif Require Import Base GF_Model Fit_Model Fit_Spec Fit_Proofs Fit2_Proofs Fit3_Proofs Fit4_Proofs Res_Model Res_Spec Res_Proofs.
Import ListNotations.
Local Open Scope list_scope.

Lemma grouped_swap gi index : length index = length gi ->
  map snd (groupby_unsorted Z.eq_dec snd fst (combine index gi)) = map (map (fun i => nth i index 0%Z)) (rowsets gi).
Proof.
  intros L. unfold rowsets. rewrite groupby_closed.
  assert (E : map snd (combine index gi) = gi).
  { clear -L. revert gi L. induction index as [|a l IH]; destruct gi; simpl; intros; try lia; [reflexivity|]. f_equal. apply IH. lia. }
  rewrite E, <- uniq_first_occ, !map_map. apply map_ext. intros k. cbn [snd].
  rewrite (combine_nth_seq index gi 0%Z 0%Z) by auto. rewrite filter_map_comm, map_map. cbn [fst snd].
  rewrite (eqb_dec_filter (fun i => nth i gi 0%Z)), L. reflexivity.
Qed.

Lemma mean_ok x : x <> [] -> exists m, meandatetime x = Ok m.
Proof. destruct x as [|a [|b r]]; [congruence| |]; intros _; eexists; reflexivity. Qed.

Lemma mapM_mean (rows : list (list Z)) : (forall s, In s rows -> s <> []) ->
  exists ms, mapM meandatetime rows = Ok ms /\ length ms = length rows /\
    forall k, (k < length rows)%nat -> meandatetime (nth k rows []) = Ok (nth k ms 0%Z).
Proof.
  induction rows as [|r rows IH]; intros H.
  - exists []. split; [reflexivity|]. split; [reflexivity|]. simpl; intros; lia.
  - destruct (mean_ok r (H r (or_introl eq_refl))) as [m Em].
    destruct IH as (ms & E & L & N); [intros; apply H; right; assumption|].
    exists (m :: ms). cbn [mapM]. rewrite Em, E. cbn [bind]. split; [reflexivity|]. split; [simpl; lia|].
    intros [|k] Hk; [exact Em|]. cbn [nth]. apply N. simpl in Hk. lia.
Qed.

Lemma rowsets_members gi k : (k < length (uniq gi))%nat -> nth k (rowsets gi) [] = members gi (nth k (uniq gi) 0%Z).
Proof. intros H. unfold rowsets. rewrite (nth_map_lt _ (uniq gi) k 0%Z) by auto. reflexivity. Qed.

Lemma res_df_group_ok {V} gi index (p : list Z * list V) d : length index = length gi -> refines gi (fst p) ->
  length (snd p) = length (uniq (fst p)) ->
  exists df, res_df_group gi index (fst p) (snd p) = Ok df /\ length df = length (uniq gi) /\
  forall k, (k < length (uniq gi))%nat -> exists m v, nth_error df k = Some (m, Some v) /\
    meandatetime (map (fun i => nth i index 0%Z) (members gi (nth k (uniq gi) 0%Z))) = Ok m /\
    forall i, In i (members gi (nth k (uniq gi) 0%Z)) -> value_at d p i = v.
Proof.
  destruct p as [dyn val]. cbn [fst snd]. intros Li Hr Lv. unfold res_df_group, meandatetimes_group.
  rewrite grouped_swap by auto.
  destruct (mapM_mean (map (map (fun i => nth i index 0%Z)) (rowsets gi))) as (ms & E & L & N).
  { intros s Hs. apply in_map_iff in Hs. destruct Hs as (t & <- & Ht). apply rowsets_nonempty in Ht. destruct t; simpl; congruence. }
  rewrite E. cbn [bind].
  assert (Lr : length (rowsets gi) = length (uniq gi)) by (unfold rowsets; apply map_length).
  rewrite map_length, Lr in L.
  assert (Ld : length (dyn_df gi dyn) = length (uniq gi)).
  { rewrite dyn_df_values by apply Hr. unfold group_values. apply map_length. }
  rewrite L, <- Ld.
  change (fold_left (fun x p => put x (snd p) (fst p)) (combine val (param_assigns gi dyn)) (repeat None (length (dyn_df gi dyn))))
    with (step_values (dyn_df gi dyn) val).
  assert (Ls : length (step_values (dyn_df gi dyn) val) = length (uniq gi)).
  { unfold step_values. rewrite puts_length, repeat_length. exact Ld. }
  eexists. split; [reflexivity|]. split; [rewrite combine_length; lia|].
  intros k Hk. rewrite Ld in *. set (g := nth k (uniq gi) 0%Z).
  assert (Hg : In g gi) by (apply in_uniq, nth_In; auto).
  exists (nth k ms 0%Z). exists (nth (rank dyn (nth (number g gi) dyn 0%Z)) val d).
  split; [|split].
  - rewrite nth_error_nth' with (d := (0%Z, None)) by (rewrite combine_length; lia).
    rewrite combine_nth by lia. rewrite (step_values_ok _ val d k) by
      (rewrite ?Ld, ?dyn_df_values, ?uniq_group_values by (auto; apply Hr); lia).
    unfold rank. rewrite dyn_df_values by apply Hr. rewrite uniq_group_values by auto.
    unfold group_values. rewrite (nth_map_lt _ (uniq gi) k 0%Z) by auto. reflexivity.
  - specialize (N k). rewrite map_length, Lr in N. specialize (N Hk). rewrite <- N.
    rewrite (nth_map_lt _ (rowsets gi) k []) by lia. rewrite rowsets_members by auto. reflexivity.
  - intros i Hi. apply filter_In in Hi. destruct Hi as [Hi Ei]. apply in_seq in Hi. apply Z.eqb_eq in Ei.
    unfold value_at. cbn [fst snd]. destruct (number_first g gi Hg) as [E1 E2].
    destruct Hr as [Hl Hr]. rewrite (Hr i (number g gi)) by (try lia; congruence). reflexivity.
Qed.

(** ** runs *)
Lemma runs_map {X Y} (f : X -> Y) (l : list (X * Z)) : runs (map (fun p => (f (fst p), snd p)) l) = map (fun r => (fst r, map f (snd r))) (runs l).
Proof.
  induction l as [|[x k] l IH]; [reflexivity|]. cbn [map runs fst snd]. rewrite IH.
  destruct (runs l) as [|[k' xs] rest]; [reflexivity|]. cbn [map fst snd]. destruct (Z.eqb k k'); reflexivity.
Qed.
Lemma runs_concat {X} (l : list (X * Z)) : concat (map snd (runs l)) = map fst l.
Proof.
  induction l as [|[x k] l IH]; [reflexivity|]. cbn [map runs fst]. rewrite <- IH.
  destruct (runs l) as [|[k' xs] rest]; [reflexivity|]. destruct (Z.eqb k k'); reflexivity.
Qed.
Lemma runs_members {X} (l : list (X * Z)) : forall k xs, In (k, xs) (runs l) -> xs <> [] /\ forall x, In x xs -> In (x, k) l.
Proof.
  induction l as [|[x k] l IH]; [intros k xs []|]. intros k1 xs1. cbn [runs].
  destruct (runs l) as [|[k' xs] rest].
  - intros [E|[]]. injection E as <- <-. split; [congruence|]. intros y [<-|[]]. left. reflexivity.
  - destruct (Z.eqb_spec k k') as [->|N].
    + intros [E|I].
      * injection E as <- <-. split; [congruence|]. intros y [<-|Hy]; [left; reflexivity|]. right. apply (IH k' xs); [left; reflexivity|exact Hy].
      * destruct (IH k1 xs1 (or_intror I)) as [A B]. split; [exact A|]. intros; right; auto.
    + intros [E|I].
      * injection E as <- <-. split; [congruence|]. intros y [<-|[]]. left. reflexivity.
      * destruct (IH k1 xs1 I) as [A B]. split; [exact A|]. intros; right; auto.
Qed.
Lemma runs_differ {X} (l : list (X * Z)) : forall j, (S j < length (runs l))%nat ->
  nth j (map fst (runs l)) 0%Z <> nth (S j) (map fst (runs l)) 0%Z.
Proof.
  induction l as [|[x k] l IH]; [simpl; intros; lia|]. intros j. cbn [runs].
  destruct (runs l) as [|[k' xs] rest]; [simpl; intros; lia|].
  destruct (Z.eqb_spec k k') as [->|N].
  - intros H. apply (IH j). exact H.
  - intros H. destruct j as [|j]; [exact N|]. apply (IH j). simpl in *. lia.
Qed.

Lemma combine_keys dyn i k : In (i, k) (combine (seq 0 (length dyn)) dyn) -> nth i dyn 0%Z = k.
Proof.
  rewrite (combine_nth_seq (seq 0 (length dyn)) dyn 0%nat 0%Z) by apply seq_length.
  intros H. apply in_map_iff in H. destruct H as (j & E & Hj). apply in_seq in Hj. rewrite seq_length in Hj.
  rewrite seq_nth in E by lia. injection E as <- <-. reflexivity.
Qed.

Lemma map_snd_nth {X} (l : list (Z * list X)) k : nth k (map snd l) [] = snd (nth k l (0%Z, [])).
Proof. rewrite <- (map_nth snd). reflexivity. Qed.

Lemma runs_is_runs dyn : is_runs dyn (map snd (runs (combine (seq 0 (length dyn)) dyn))).
Proof.
  set (l := combine (seq 0 (length dyn)) dyn).
  split; [|split].
  - rewrite runs_concat. unfold l. apply map_fst_combine, seq_length.
  - intros s Hs. apply in_map_iff in Hs. destruct Hs as ([k xs] & <- & Hr). cbn [snd].
    destruct (runs_members l k xs Hr) as [A B]. split; [exact A|]. intros i j Hi Hj.
    rewrite (combine_keys dyn i k), (combine_keys dyn j k); auto.
  - intros k i j Hk Hi Hj. rewrite map_length in Hk. rewrite map_snd_nth in Hi, Hj.
    destruct (nth k (runs l) (0%Z, [])) as [k1 x1] eqn:E1. destruct (nth (S k) (runs l) (0%Z, [])) as [k2 x2] eqn:E2.
    assert (I1 : In (k1, x1) (runs l)) by (rewrite <- E1; apply nth_In; lia).
    assert (I2 : In (k2, x2) (runs l)) by (rewrite <- E2; apply nth_In; lia).
    cbn [snd] in Hi, Hj.
    rewrite (combine_keys dyn i k1) by (apply (runs_members l _ _ I1), Hi).
    rewrite (combine_keys dyn j k2) by (apply (runs_members l _ _ I2), Hj).
    pose proof (runs_differ l k Hk) as D.
    rewrite (nth_map_lt fst (runs l) k (0%Z, [])), (nth_map_lt fst (runs l) (S k) (0%Z, [])), E1, E2 in D by lia. exact D.
Qed.

Lemma rowsets_is_runs dyn : contiguous dyn -> is_runs dyn (rowsets dyn).
Proof.
  intros H. split; [apply processing_order_contiguous, H|]. split.
  - intros s Hs. split; [apply (rowsets_nonempty dyn), Hs|]. apply in_map_iff in Hs. destruct Hs as (g & <- & Hg).
    intros i j Hi Hj. apply filter_In in Hi, Hj. destruct Hi as [_ Hi], Hj as [_ Hj]. apply Z.eqb_eq in Hi, Hj. congruence.
  - intros k i j Hk Hi Hj. assert (L : length (rowsets dyn) = length (uniq dyn)) by (unfold rowsets; apply map_length).
    rewrite rowsets_members in Hi, Hj by lia. apply filter_In in Hi, Hj. destruct Hi as [_ Hi], Hj as [_ Hj].
    apply Z.eqb_eq in Hi, Hj. rewrite Hi, Hj. intros E.
    pose proof (proj1 (NoDup_nth (uniq dyn) 0%Z) (NoDup_uniq dyn) k (S k)) as D. lia.
Qed.

Lemma is_monotonic_sorted l : is_monotonic l = true <-> sorted l.
Proof.
  unfold sorted. split.
  - induction l as [|x l IH]; intros H; [constructor|]. cbn [is_monotonic] in H. destruct l as [|y l].
    + repeat constructor.
    + apply andb_true_iff in H. destruct H as [H1 H2]. apply Z.leb_le in H1. specialize (IH H2).
      constructor; [exact IH|]. constructor; [exact H1|]. inversion IH as [|? ? _ F]; subst.
      eapply Forall_impl; [|exact F]. simpl. intros; lia.
  - induction 1 as [|x l H IH F]; [reflexivity|]. cbn [is_monotonic]. destruct l as [|y l]; [reflexivity|].
    rewrite IH. inversion F; subst. rewrite (proj2 (Z.leb_le x y)); auto.
Qed.

Lemma interp_runs {V} gi index dyn (val : list V) : length index = length dyn -> length gi = length dyn ->
  length val = length (uniq dyn) -> ~ sorted (group_values gi dyn) ->
  exists segs nodes, is_runs dyn segs /\ interp_nodes gi index dyn val = Ok nodes /\ nodes_of index dyn val segs nodes.
Proof.
  intros Li Lg Lv Hn. set (l := combine (seq 0 (length dyn)) dyn).
  exists (map snd (runs l)). unfold interp_nodes.
  rewrite dyn_df_values by auto.
  destruct (is_monotonic (group_values gi dyn)) eqn:M; [apply is_monotonic_sorted in M; contradiction|].
  unfold meandt_interp_assigns.
  assert (Ec : combine index dyn = map (fun p => (nth (fst p) index 0%Z, snd p)) l).
  { unfold l. rewrite (combine_nth_seq index dyn 0%Z 0%Z) by auto.
    rewrite (combine_nth_seq (seq 0 (length dyn)) dyn 0%nat 0%Z) by apply seq_length. rewrite map_map, seq_length, Li.
    apply map_ext_in. intros i Hi. apply in_seq in Hi. cbn [fst snd]. rewrite seq_nth by lia. reflexivity. }
  rewrite Ec, (runs_map (fun i => nth i index 0%Z)).
  assert (Ek : map fst (groupby_unsorted Z.eq_dec (fun x => x) (fun x => x) dyn) = uniq dyn).
  { rewrite groupby_closed, map_map. cbn [fst]. rewrite !map_id. symmetry. apply uniq_first_occ. }
  rewrite Ek.
  pose proof (runs_is_runs dyn) as RR. fold l in RR.
  assert (G : forall rs, (forall r, In r rs -> snd r <> [] /\ In (fst r) dyn /\ forall i, In i (snd r) -> nth i dyn 0%Z = fst r) ->
    exists nodes, mapM (fun r => do m <- meandatetime (snd r); Ok (m, pos (fst r) (uniq dyn))) (map (fun r => (fst r, map (fun i => nth i index 0%Z) (snd r))) rs) = Ok nodes
      /\ nodes_of index dyn val (map snd rs) (map (fun p => (fst p, nth_error val (snd p))) nodes)).
  { induction rs as [|[k xs] rs IH]; intros H.
    - exists []. split; [reflexivity|]. split; [reflexivity|]. simpl; intros; lia.
    - destruct (H (k, xs) (or_introl eq_refl)) as (A & B & C). cbn [fst snd] in A, B, C.
      destruct (mean_ok (map (fun i => nth i index 0%Z) xs)) as [m Em]; [destruct xs; simpl; congruence|].
      destruct IH as (nodes & E & L & N); [intros; apply H; right; assumption|].
      exists ((m, pos k (uniq dyn)) :: nodes). cbn [map mapM fst snd]. rewrite Em. cbn [bind]. rewrite E. cbn [bind].
      split; [reflexivity|]. split; [simpl; rewrite L; reflexivity|].
      intros [|j] Hj.
      + exists m. rewrite pos_number. pose proof (rank_lt dyn k B) as R. unfold rank in R.
        destruct (nth_error val (number k (uniq dyn))) as [v|] eqn:Ev; [|apply nth_error_None in Ev; lia].
        exists v. cbn [nth_error map nth snd fst]. try rewrite Ev. split; [reflexivity|]. split; [exact Em|].
        intros d i Hi. unfold value_at. cbn [fst snd]. rewrite (C i Hi). apply nth_error_nth with (1 := Ev).
      + cbn [map nth snd length] in Hj |- *. destruct (N j) as (m' & v & X & Y & W); [simpl in Hj; lia|]. exists m', v. cbn [nth_error]. auto. }
  destruct (G (runs l)) as (nodes & E & N).
  { intros [k xs] Hr. cbn [fst snd]. destruct (runs_members l k xs Hr) as [A B]. split; [exact A|].
    split; [|intros i Hi; apply combine_keys, B, Hi].
    destruct xs as [|x xs]; [congruence|]. specialize (B x (or_introl eq_refl)). apply in_combine_r in B. exact B. }
  rewrite E. cbn [bind]. eexists. split; [exact RR|]. split; [reflexivity|exact N].
Qed.

Lemma interp_groups {V} gi index dyn (val : list V) : length index = length dyn -> length gi = length dyn ->
  length val = length (uniq dyn) -> sorted (group_values gi dyn) ->
  exists nodes, interp_nodes gi index dyn val = Ok nodes /\ nodes_of index dyn val (rowsets dyn) nodes.
Proof.
  intros Li Lg Lv Hs. unfold interp_nodes. rewrite dyn_df_values by auto.
  rewrite (proj2 (is_monotonic_sorted _) Hs). unfold meandatetimes. rewrite grouped_swap by auto.
  destruct (mapM_mean (map (map (fun i => nth i index 0%Z)) (rowsets dyn))) as (ms & E & L & N).
  { intros s Hs'. apply in_map_iff in Hs'. destruct Hs' as (t & <- & Ht). apply rowsets_nonempty in Ht. destruct t; simpl; congruence. }
  rewrite E. cbn [bind].
  assert (Lr : length (rowsets dyn) = length (uniq dyn)) by (unfold rowsets; apply map_length).
  rewrite map_length, Lr in L. eexists. split; [reflexivity|]. split; [rewrite combine_length, map_length; lia|].
  intros k Hk. rewrite Lr in Hk. exists (nth k ms 0%Z).
  destruct (nth_error val k) as [v|] eqn:Ev; [|apply nth_error_None in Ev; lia]. exists v. split; [|split].
  - rewrite nth_error_nth' with (d := (0%Z, None)) by (rewrite combine_length, map_length; lia).
    rewrite combine_nth by (rewrite map_length; lia). f_equal. f_equal.
    rewrite (nth_map_lt Some val k v) by lia. f_equal. apply nth_error_nth with (1 := Ev).
  - specialize (N k). rewrite map_length, Lr in N. specialize (N Hk). rewrite <- N.
    rewrite (nth_map_lt _ (rowsets dyn) k []) by lia. reflexivity.
  - intros d i Hi. rewrite rowsets_members in Hi by auto. apply filter_In in Hi. destruct Hi as [_ Hi]. apply Z.eqb_eq in Hi.
    unfold value_at. cbn [fst snd]. rewrite Hi. unfold rank. rewrite number_of_nth by (auto using NoDup_uniq). apply nth_error_nth with (1 := Ev).
Qed.
