(** Counters, hanging states and crash states of the pipeline. *)
From Coq Require Import List Arith Bool String Ascii Lia Permutation.
From Verif Require Import Base Base_Proofs Str_Model Str_Proofs Perm_Tac Pip_Model Pip_Spec Pip_Proofs.
Import ListNotations.
Local Open Scope list_scope.

(** ** sums *)
Fixpoint sumf {A} (f : A -> nat) (l : list A) : nat := match l with [] => 0 | x :: r => f x + sumf f r end.
Lemma sumf_app {A} (f : A -> nat) l m : sumf f (l ++ m) = sumf f l + sumf f m.
Proof. induction l as [|x l IH]; simpl; [reflexivity|]. rewrite IH. lia. Qed.
Lemma sumf_del {A} (f : A -> nat) l i x : nth_error l i = Some x -> sumf f l = f x + sumf f (del i l).
Proof. revert i. induction l as [|y l IH]; intros [|i] H; simpl in *; try discriminate; [congruence|]. rewrite (IH i H). lia. Qed.
Lemma sumf_upd {A} (f : A -> nat) l i x y : nth_error l i = Some x -> sumf f (upd i y l) + f x = sumf f l + f y.
Proof.
  revert i. induction l as [|z l IH]; intros [|i] H; simpl in *; try discriminate.
  - inversion H; subst. lia.
  - specialize (IH i H). lia.
Qed.
Lemma sumf_repeat0 {A} (f : A -> nat) x n : f x = 0 -> sumf f (repeat x n) = 0.
Proof. intros H. induction n; simpl; lia. Qed.

Section P2.
Context {Job Row : Type}.
Notation value := (@value Row).
Notation result := (@result Row).
Notation results := (@results Row).
Notation state := (@state Job Row).
Notation params := (@params Job Row).
Notation krow := (string * Row)%type.

(** a weight of messages; every weighted message is counted once *)
Definition cwt (f : @msg Row -> nat) (x : @comb Row) : nat := match c_pc x with CHave m => f m | _ => 0 end.
Definition pending (f : @msg Row -> nat) (p : params) (s : state) : nat :=
  sumf (fun j => sumf f (worker_put (what p j))) (todo s) + sumf (fun j => sumf f (worker_put (what p j))) (running s)
  + sumf f (queue s) + sumf (cwt f) (combs s).
Definition isdict (m : @msg Row) : nat := match m with MDict _ => 1 | _ => 0 end.
Definition notbad (m : @msg Row) : nat := match m with MBad => 0 | _ => 1 end.

Lemma combs_sum f (s : state) c x y : nth_error (combs s) c = Some x ->
  sumf (cwt f) (upd c y (combs s)) + cwt f x = sumf (cwt f) (combs s) + cwt f y.
Proof. apply sumf_upd. Qed.

Ltac cw S := match type of S with ?a + cwt ?f ?x = ?b + cwt ?f ?y =>
  change (a + match c_pc x with CHave m => f m | _ => 0 end = b + match c_pc y with CHave m => f m | _ => 0 end) in S end.
Lemma step_counts p e (s s' : state) : step p e s = Some s' ->
  meancnt s' + pending isdict p s' = meancnt s + pending isdict p s /\
  totcnt s' + pending notbad p s' = totcnt s + pending notbad p s.
Proof.
  intros H.
  assert (Q : forall x y c f, nth_error (combs s) c = Some x -> c_pc x = c_pc y \/ (cwt f x = 0 /\ cwt f y = 0) ->
              sumf (cwt f) (upd c y (combs s)) = sumf (cwt f) (combs s)).
  { intros x y c f E Z. assert (S := combs_sum f s c x y E). destruct Z as [Z|Z]; unfold cwt in *; [rewrite Z in S|]; lia. }
  destruct e; cbn [step] in H.
  - destruct (nth_error (todo s) i) as [j|] eqn:E; [|discriminate].
    destruct (should_wait s && Nat.ltb (List.length (running s)) (n_worker p)); [|discriminate]. inversion H; subst.
    unfold pending, set_jobs. cbn. rewrite !(sumf_del _ _ _ _ E), !sumf_app. cbn. lia.
  - destruct (nth_error (running s) i) as [j|] eqn:E; [|discriminate]. inversion H; subst.
    unfold pending, set_jobs, set_queue. cbn. rewrite !(sumf_del _ _ _ _ E), !sumf_app. cbn. lia.
  - destruct (nth_error (combs s) c) as [x|] eqn:E; [|discriminate]. unfold comb_step in H.
    destruct (c_pc x) as [| | |m| |] eqn:Epc.
    + destruct (should_stop s && isnil (queue s)); inversion H; subst; unfold pending, set_comb; cbn;
        rewrite !(Q x _ c _ E) by (right; unfold cwt; rewrite Epc; auto); lia.
    + destruct (stop_ s); inversion H; subst; unfold pending, set_comb; cbn;
        rewrite !(Q x _ c _ E) by (right; unfold cwt; rewrite Epc; auto); lia.
    + destruct (Nat.ltb (c_n x) (chunk p)).
      * destruct (queue s) as [|m q] eqn:Eq; [discriminate|]. inversion H; subst. unfold pending, set_comb, set_queue. cbn.
        assert (S1 := combs_sum isdict s c x (mkcomb (CHave m) (c_res x) (c_n x) (c_thr x)) E).
        assert (S2 := combs_sum notbad s c x (mkcomb (CHave m) (c_res x) (c_n x) (c_thr x)) E).
        cw S1; cw S2; rewrite Epc in S1, S2; cbn in S1, S2. rewrite Eq. cbn. lia.
      * inversion H; subst; unfold pending, set_comb; cbn; rewrite !(Q x _ c _ E) by (right; unfold cwt; rewrite Epc; auto); lia.
    + destruct m as [|r|]; inversion H; subst; unfold pending, set_comb, increase_cnt; cbn.
      * assert (S1 := combs_sum isdict s c x (mkcomb CGet (c_res x) (c_n x) (c_thr x)) E).
        assert (S2 := combs_sum notbad s c x (mkcomb CGet (c_res x) (c_n x) (c_thr x)) E).
        cw S1; cw S2; rewrite Epc in S1, S2; cbn in S1, S2. lia.
      * assert (S1 := combs_sum isdict s c x (mkcomb CGet (collect (c_res x) r) (S (c_n x)) (c_thr x)) E).
        assert (S2 := combs_sum notbad s c x (mkcomb CGet (collect (c_res x) r) (S (c_n x)) (c_thr x)) E).
        cw S1; cw S2; rewrite Epc in S1, S2; cbn in S1, S2. lia.
      * rewrite !(Q x _ c _ E) by (right; unfold cwt; rewrite Epc; auto); lia.
    + destruct (c_thr x); [|discriminate]. inversion H; subst; unfold pending, set_comb; cbn;
        rewrite !(Q x _ c _ E) by (right; unfold cwt; rewrite Epc; auto); lia.
    + discriminate.
  - destruct (nth_error (combs s) c) as [x|] eqn:E; [|discriminate]. destruct (c_pc x) eqn:Epc; try discriminate.
    destruct (Nat.ltb (c_n x) (chunk p)); [|discriminate]. inversion H; subst; unfold pending, set_comb; cbn;
        rewrite !(Q x _ c _ E) by (right; unfold cwt; rewrite Epc; auto); lia.
  - destruct (nth_error (combs s) c) as [x|] eqn:E; [|discriminate]. destruct (nth_error (c_thr x) i) as [rs|] eqn:Et; [|discriminate].
    destruct (combine_results rs); inversion H; subst; unfold pending, set_comb, set_outq; cbn;
        rewrite !(Q x _ c _ E) by (left; reflexivity); lia.
  - destruct (nth_error (writers s) w) as [x|] eqn:E; [|discriminate]. unfold writer_step in H.
    destruct x as [| | | |b|[|[k [rows|]] b]|]; try discriminate.
    + destruct (ready s && isnil (outq s)); inversion H; subst; split; reflexivity.
    + destruct (stop_ s); inversion H; subst; split; reflexivity.
    + inversion H; subst; split; reflexivity.
    + destruct (outq s); inversion H; subst; split; reflexivity.
    + destruct (locked s); inversion H; subst; split; reflexivity.
    + inversion H; subst; split; reflexivity.
    + inversion H; subst; split; reflexivity.
    + inversion H; subst; split; reflexivity.
  - destruct (nth_error (writers s) w) as [[]|]; inversion H; subst; split; reflexivity.
  - destruct (nth_error (writers s) w) as [[]|]; inversion H; subst; split; reflexivity.
  - destruct (main s).
    + destruct (isnil (todo s) && isnil (running s)); inversion H; subst; split; reflexivity.
    + destruct (forallb _ (combs s)); inversion H; subst; split; reflexivity.
    + destruct (forallb _ (writers s)); inversion H; subst; split; reflexivity.
    + discriminate.
  - destruct (main s); inversion H; subst; split; reflexivity.
Qed.

Lemma run_counts p es : forall s s' : state, run p es s = Some s' ->
  meancnt s' + pending isdict p s' = meancnt s + pending isdict p s /\
  totcnt s' + pending notbad p s' = totcnt s + pending notbad p s.
Proof.
  induction es as [|e es IH]; intros s s' H; cbn [run] in H; [inversion H; auto|].
  destruct (step p e s) as [s1|] eqn:E; [|discriminate]. destruct (step_counts p e s s1 E). destruct (IH s1 s' H). lia.
Qed.
Lemma init_counts f p jobs : pending f p (@init Job Row p jobs) = sumf (fun j => sumf f (worker_put (what p j))) jobs.
Proof. unfold pending, init. cbn. rewrite sumf_repeat0 by reflexivity. lia. Qed.

(** the errors: [totcnt - meancnt] *)
Lemma step_le p e (s s' : state) : step p e s = Some s' -> meancnt s <= totcnt s -> meancnt s' <= totcnt s'.
Proof.
  intros H. assert (Z : (exists b s0, s' = increase_cnt b s0 /\ meancnt s0 = meancnt s /\ totcnt s0 = totcnt s) \/ (meancnt s' = meancnt s /\ totcnt s' = totcnt s)
     \/ (meancnt s' = S (meancnt s) /\ totcnt s' = S (totcnt s)) \/ (meancnt s' = meancnt s /\ totcnt s' = S (totcnt s))).
  { right. destruct e; cbn [step] in H.
    - destruct (nth_error (todo s) i); [|discriminate]. destruct (should_wait s && _); inversion H; subst; auto.
    - destruct (nth_error (running s) i); inversion H; subst; auto.
    - destruct (nth_error (combs s) c) as [x|]; [|discriminate]. unfold comb_step in H. destruct (c_pc x) as [| | |[]| |].
      + destruct (should_stop s && isnil (queue s)); inversion H; subst; auto.
      + destruct (stop_ s); inversion H; subst; auto.
      + destruct (Nat.ltb (c_n x) (chunk p)); [destruct (queue s)|]; inversion H; subst; auto.
      + inversion H; subst; auto.
      + inversion H; subst; auto.
      + inversion H; subst; auto.
      + destruct (isnil (c_thr x)); inversion H; subst; auto.
      + discriminate.
    - destruct (nth_error (combs s) c) as [x|]; [|discriminate]. destruct (c_pc x); try discriminate. destruct (Nat.ltb _ _); inversion H; subst; auto.
    - destruct (nth_error (combs s) c) as [x|]; [|discriminate]. destruct (nth_error (c_thr x) i) as [rs|]; [|discriminate].
      destruct (combine_results rs); inversion H; subst; auto.
    - destruct (nth_error (writers s) w) as [x|]; [|discriminate]. unfold writer_step in H.
      destruct x as [| | | |b|[|[k [rows|]] b]|]; try discriminate.
      + destruct (ready s && isnil (outq s)); inversion H; subst; auto.
      + destruct (stop_ s); inversion H; subst; auto.
      + inversion H; subst; auto.
      + destruct (outq s); inversion H; subst; auto.
      + destruct (locked s); inversion H; subst; auto.
      + inversion H; subst; auto.
      + inversion H; subst; auto.
      + inversion H; subst; auto.
    - destruct (nth_error (writers s) w) as [[]|]; inversion H; subst; auto.
    - destruct (nth_error (writers s) w) as [[]|]; inversion H; subst; auto.
    - destruct (main s).
      + destruct (isnil (todo s) && isnil (running s)); inversion H; subst; auto.
      + destruct (forallb _ (combs s)); inversion H; subst; auto.
      + destruct (forallb _ (writers s)); inversion H; subst; auto.
      + discriminate.
    - destruct (main s); inversion H; subst; auto. }
  destruct Z as [(b & s0 & -> & A & B)|[[A B]|[[A B]|[A B]]]]; try lia. destruct b; cbn; lia.
Qed.
Lemma run_le p es : forall s s' : state, run p es s = Some s' -> meancnt s <= totcnt s -> meancnt s' <= totcnt s'.
Proof.
  induction es as [|e es IH]; intros s s' H; cbn [run] in H; [inversion H; auto|].
  destruct (step p e s) as [s1|] eqn:E; [|discriminate]. intros L. apply (IH s1 s' H). exact (step_le p e s s1 E L).
Qed.

Lemma total_sumf (f : Job -> nat) l : total f l = sumf f l.
Proof. induction l as [|x l IH]; simpl; [reflexivity|]. rewrite <- IH. reflexivity. Qed.
Lemma sumf_ext {A} (f g : A -> nat) l : (forall x, In x l -> f x = g x) -> sumf f l = sumf g l.
Proof. induction l as [|x l IH]; intros H; simpl; [reflexivity|]. rewrite (H x (or_introl eq_refl)), IH; [reflexivity|]. intros; apply H; right; assumption. Qed.
Lemma sumf_le {A} (f g : A -> nat) l : (forall x, In x l -> f x <= g x) -> sumf f l <= sumf g l.
Proof.
  induction l as [|x l IH]; intros H; simpl; [lia|]. assert (A1 := H x (or_introl eq_refl)).
  assert (A2 := IH (fun y Hy => H y (or_intror Hy))). lia.
Qed.

(** ** hanging states *)
Definition Hang (s : state) : Prop :=
  main s = PRun /\ todo s <> [] /\ should_wait s = false /\ forall w, In w (writers s) -> w = WDone.
Lemma hang_step p e (s s' : state) : Hang s -> step p e s = Some s' -> Hang s'.
Proof.
  intros (M & T & W & D) H.
  assert (NW : forall w x, nth_error (writers s) w = Some x -> x = WDone) by (intros w x E; apply D; eapply nth_in, E).
  destruct e; cbn [step] in H.
  - rewrite W in H. destruct (nth_error (todo s) i); discriminate.
  - destruct (nth_error (running s) i); inversion H; subst. repeat split; assumption.
  - destruct (nth_error (combs s) c) as [x|]; [|discriminate]. unfold comb_step in H. destruct (c_pc x) as [| | |[]| |].
    + destruct (should_stop s && isnil (queue s)); inversion H; subst; repeat split; assumption.
    + destruct (stop_ s); inversion H; subst; repeat split; assumption.
    + destruct (Nat.ltb (c_n x) (chunk p)); [destruct (queue s)|]; inversion H; subst; repeat split; assumption.
    + inversion H; subst; repeat split; assumption.
    + inversion H; subst; repeat split; assumption.
    + inversion H; subst; repeat split; assumption.
    + destruct (isnil (c_thr x)); inversion H; subst; repeat split; assumption.
    + discriminate.
  - destruct (nth_error (combs s) c) as [x|]; [|discriminate]. destruct (c_pc x); try discriminate.
    destruct (Nat.ltb _ _); inversion H; subst; repeat split; assumption.
  - destruct (nth_error (combs s) c) as [x|]; [|discriminate]. destruct (nth_error (c_thr x) i) as [rs|]; [|discriminate].
    destruct (combine_results rs); inversion H; subst; repeat split; assumption.
  - destruct (nth_error (writers s) w) as [x|] eqn:E; [|discriminate]. rewrite (NW w x E) in H. discriminate.
  - destruct (nth_error (writers s) w) as [x|] eqn:E; [|discriminate]. rewrite (NW w x E) in H. discriminate.
  - destruct (nth_error (writers s) w) as [x|] eqn:E; [|discriminate]. rewrite (NW w x E) in H. discriminate.
  - rewrite M in H. destruct (todo s) eqn:Et; [congruence|]. discriminate.
  - rewrite M in H. inversion H; subst; repeat split; assumption.
Qed.
Lemma hang_forever p es : forall s s' : state, Hang s -> run p es s = Some s' -> Hang s'.
Proof.
  induction es as [|e es IH]; intros s s' Z H; cbn [run] in H; [inversion H; subst; exact Z|].
  destruct (step p e s) as [s1|] eqn:E; [|discriminate]. apply (IH s1 s'); [|exact H]. eapply hang_step; eassumption.
Qed.

(** ** never more than was produced *)
Lemma result_rows_split (r : result) : exists lost,
  Permutation (map snd (result_rows r)) (map snd (mrows (MDict r)) ++ lost).
Proof.
  unfold result_rows, layers, mrows. induction r as [|[cfg c] r [lost IH]]; [exists []; reflexivity|].
  cbn [flat_map]. rewrite !flat_map_app, !map_app. cbn [fst snd].
  assert (Z : exists l, Permutation
    (map snd (flat_map (fun kv : string * value => map (pair (fst kv)) (val_rows (snd kv)))
      match c with Leaf v => [(layer cfg, v)] | Sub d => map (fun kv => ((cfg ++ "/" ++ fst kv)%string, snd kv)) d end))
    (map snd (flat_map krows (entry_keys (cfg, c))) ++ l)).
  { unfold entry_keys. destruct c as [v|d].
    - exists []. rewrite app_nil_r. destruct (startswith "const__" cfg); cbn [flat_map fst snd]; rewrite !app_nil_r; unfold krows; cbn [fst snd];
        rewrite !map_map; cbn [snd]; reflexivity.
    - destruct (startswith "const__" cfg).
      + eexists. cbn [flat_map krows fst snd val_rows map app]. reflexivity.
      + exists []. rewrite app_nil_r. reflexivity. }
  destruct Z as [l Z]. exists (l ++ lost). rewrite Z, IH. perm.
Qed.
Lemma job_rows_split (p : params) (j : Job) : exists lost, Permutation (map snd (job_rows p j)) (map snd (jrows p j) ++ lost).
Proof.
  unfold job_rows, jrows. destruct (what p j) as [| |[|r|]]; try (exists []; reflexivity).
  cbn [worker_put flat_map]. rewrite app_nil_r. apply result_rows_split.
Qed.
Lemma jobs_rows_split (p : params) (jobs : list Job) : exists lost,
  Permutation (map snd (flat_map (job_rows p) jobs)) (map snd (flat_map (jrows p) jobs) ++ lost).
Proof.
  induction jobs as [|j l [lost IH]]; [exists []; reflexivity|]. destruct (job_rows_split p j) as [l1 P1].
  cbn [flat_map]. rewrite !map_app. exists (l1 ++ lost). rewrite P1, IH. perm.
Qed.

(** ** crash states *)
Section Crash.
Variable p : params.
Variable jobs : list Job.
Variable kind : string -> bool.
Variable ra : string.
Variable ks : list string.
Hypothesis GT : forall j, In j jobs -> good_task kind (what p j).
Hypothesis KN : NoDup (ks ++ [ra]).
Hypothesis KO : forall j r, In j jobs -> what p j = Returns (MDict r) -> map fst (layers r) = ks ++ [ra].

(** the rows of a task's result are all in [l] *)
Definition covered (l : list krow) (x : Row) : Prop := exists j, In j jobs /\ In (ra, x) (job_rows p j) /\ incl (job_rows p j) l.
Definition closed (l : list krow) : Prop := forall x, In (ra, x) l -> covered l x.
Definition orders (l : list string) : Prop := l = [] \/ l = ks ++ [ra].
Definition kres (rs : results) : Prop := orders (map fst rs) /\ closed (rrows rs).
Definition kmsg (m : @msg Row) : Prop := match m with MDict r => exists j, In j jobs /\ what p j = Returns (MDict r) | _ => True end.
Definition tails (l : list string) : Prop := exists pre, pre ++ l = ks ++ [ra].
Definition kbatch (b : @batch Row) : Prop := orders (map fst b) /\ closed (brows b).
Definition kwriter (st : list krow) (w : @wpc Row) : Prop :=
  match w with
  | WHave b => kbatch b
  | WWriting b => (b = [] \/ tails (map fst b)) /\ forall x, In (ra, x) (brows b) -> covered (st ++ brows b) x
  | _ => True
  end.
Definition kcomb (x : @comb Row) : Prop :=
  kres (c_res x) /\ (forall rs, In rs (c_thr x) -> kres rs) /\ match c_pc x with CHave m => kmsg m | _ => True end.
Record Crash (s : state) : Prop := mkCrash {
  k_todo : forall j, In j (todo s ++ running s) -> In j jobs;
  k_queue : forall m, In m (queue s) -> kmsg m;
  k_combs : forall x, In x (combs s) -> kcomb x;
  k_outq : forall b, In b (outq s) -> kbatch b;
  k_writers : forall w, In w (writers s) -> kwriter (store s) w;
  k_store : closed (store s) }.

Lemma covered_incl l m x : incl l m -> covered l x -> covered m x.
Proof. intros H (j & A & B & C). exists j. repeat split; [exact A|exact B|]. eapply incl_tran; eassumption. Qed.
Lemma closed_perm l m : Permutation l m -> closed l -> closed m.
Proof.
  intros P H x Hx. apply (covered_incl l); [intros z Hz; eapply Permutation_in; eassumption|].
  apply H. eapply Permutation_in; [symmetry; exact P|exact Hx].
Qed.
Lemma closed_nil : closed [].
Proof. intros x []. Qed.
Lemma kres_nil : kres [].
Proof. split; [left; reflexivity|exact closed_nil]. Qed.

Lemma fst_dappend k v (d : results) : map fst (dappend k v d) = if in_dec string_dec k (map fst d) then map fst d else map fst d ++ [k].
Proof.
  unfold dappend. generalize (match dget string_dec k d with Some l => l ++ [v] | None => [v] end). intros nv.
  assert (Z : (In k (map fst d) -> map fst (dset string_dec k nv d) = map fst d) /\
              (~ In k (map fst d) -> map fst (dset string_dec k nv d) = map fst d ++ [k])).
  { induction d as [|[a b] d [I1 I2]]; [split; [intros []|reflexivity]|]. cbn [dset map fst].
    destruct (string_dec k a) as [<-|Hn]; cbn [map fst].
    - split; [reflexivity|]. intros N. exfalso. apply N. left; reflexivity.
    - split.
      + intros [H|H]; [congruence|]. rewrite (I1 H). reflexivity.
      + intros N. rewrite I2; [reflexivity|]. intros H. apply N. right; exact H. }
  destruct (in_dec string_dec k (map fst d)); [apply (proj1 Z)|apply (proj2 Z)]; assumption.
Qed.
Lemma collect_keys l : forall rs : results, NoDup (map fst l) ->
  (forall k, In k (map fst l) -> In k (map fst rs)) ->
  map fst (fold_left (fun d (kv : string * value) => dappend (fst kv) (snd kv) d) l rs) = map fst rs.
Proof.
  induction l as [|[k v] l IH]; intros rs N H; [reflexivity|]. cbn [fold_left fst snd map] in *.
  assert (Hk : In k (map fst rs)) by (apply H; left; reflexivity).
  assert (E : map fst (dappend k v rs) = map fst rs).
  { rewrite fst_dappend. destruct (in_dec string_dec k (map fst rs)); [reflexivity|contradiction]. }
  inversion N; subst. rewrite IH; [exact E|assumption|]. intros k' Hk'. rewrite E. apply H. right; exact Hk'.
Qed.
Lemma collect_keys_new l : forall rs : results, NoDup (map fst rs ++ map fst l) ->
  map fst (fold_left (fun d (kv : string * value) => dappend (fst kv) (snd kv) d) l rs) = map fst rs ++ map fst l.
Proof.
  induction l as [|[k v] l IH]; intros rs N; [cbn; rewrite app_nil_r; reflexivity|]. cbn [fold_left fst snd map] in *.
  assert (E : map fst (dappend k v rs) = map fst rs ++ [k]).
  { rewrite fst_dappend. destruct (in_dec string_dec k (map fst rs)) as [Hy|]; [|reflexivity]. exfalso.
    apply NoDup_remove_2 in N. apply N, in_or_app. left; exact Hy. }
  rewrite IH; rewrite E, <- app_assoc; [reflexivity|exact N].
Qed.

Lemma task_layers j r : In j jobs -> what p j = Returns (MDict r) ->
  flat_map entry_keys r = layers r /\ mrows (MDict r) = job_rows p j.
Proof.
  intros Hj E. assert (T := GT j Hj). rewrite E in T. destruct T as [N U]. assert (L := entry_keys_layers kind r N U).
  split; [exact L|]. unfold job_rows. rewrite E. unfold mrows. rewrite L. reflexivity.
Qed.
Lemma kres_collect rs r : kres rs -> kmsg (MDict r) -> kres (collect rs r).
Proof.
  intros [O C] (j & Hj & E). destruct (task_layers j r Hj E) as [L M]. split.
  - right. unfold collect. rewrite L. assert (K := KO j r Hj E). destruct O as [O|O].
    + destruct rs; [|discriminate]. rewrite collect_keys_new; cbn; [exact K|]. rewrite K. exact KN.
    + rewrite collect_keys; [exact O|rewrite K; exact KN|]. rewrite K, O. auto.
  - apply (closed_perm (rrows rs ++ mrows (MDict r))); [symmetry; apply rrows_collect|]. intros x Hx.
    apply in_app_or in Hx. destruct Hx as [Hx|Hx].
    + apply (covered_incl (rrows rs)); [intros z Hz; apply in_or_app; auto|]. apply C. exact Hx.
    + rewrite M in *. exists j. repeat split; [exact Hj|exact Hx|]. intros z Hz. apply in_or_app. auto.
Qed.
Lemma combine_keys (rs : results) : forall b, (forall k l, In (k, l) rs -> l <> []) -> combine_results rs = Some b -> map fst b = map fst rs.
Proof.
  induction rs as [|[k l] rs IH]; intros b N H; [inversion H; reflexivity|].
  assert (Z : l <> []) by (apply (N k); left; reflexivity). assert (N' : forall k' l', In (k', l') rs -> l' <> []) by (intros k' l' Hi; apply (N k'); right; exact Hi).
  cbn [combine_results] in H. destruct l as [|v l]; [congruence|].
  destruct (combine_results rs) as [out|]; [|destruct v; try destruct (concat_rows _); discriminate].
  specialize (IH out N' eq_refl). cbn [map fst]. rewrite <- IH. destruct v as [rows|x|].
  - destruct (concat_rows (Frame rows :: l)); inversion H; reflexivity.
  - cbn [option_map] in H. apply (f_equal (fun o => match o with Some z => map fst z | None => [] end)) in H. cbn [map fst] in H. symmetry. exact H.
  - cbn [option_map] in H. apply (f_equal (fun o => match o with Some z => map fst z | None => [] end)) in H. cbn [map fst] in H. symmetry. exact H.
Qed.

Lemma crash_comb s c x y : Crash s -> nth_error (combs s) c = Some x -> kcomb y -> Crash (set_comb c y s).
Proof.
  intros K E Y. destruct K. constructor; cbn; try assumption. intros z Hz. apply upd_in in Hz. destruct Hz as [->|Hz]; auto.
Qed.
Lemma crash_writer s w x y : Crash s -> nth_error (writers s) w = Some x -> kwriter (store s) y -> Crash (set_writer w y s).
Proof.
  intros K E Y. destruct K. constructor; cbn; try assumption. intros z Hz. apply upd_in in Hz. destruct Hz as [->|Hz]; auto.
Qed.
Lemma kwriter_mono st st' w : incl st st' -> kwriter st w -> kwriter st' w.
Proof.
  intros H. destruct w; cbn; auto. intros [A B]. split; [exact A|]. intros x Hx. apply (covered_incl (st ++ brows b)); [|apply B, Hx].
  intros z Hz. apply in_app_or in Hz. apply in_or_app. destruct Hz; auto.
Qed.

Lemma crash_step e s s' : Good p jobs kind s -> Crash s -> plain e -> step p e s = Some s' -> Crash s'.
Proof.
  intros G K P H. assert (NL := good_noloss p jobs kind e s s' G P H). destruct P as [Ps Pf].
  destruct e; cbn [step] in H; cbn [noloss] in NL.
  - destruct (nth_error (todo s) i) as [j|] eqn:E; [|discriminate].
    destruct (should_wait s && Nat.ltb (List.length (running s)) (n_worker p)); [|discriminate]. inversion H; subst.
    assert (Hj := nth_in _ _ _ E). destruct K. constructor; cbn; try assumption.
    intros k Hk. apply k_todo0. rewrite !in_app_iff in *. destruct Hk as [Hk|[Hk|[<-|[]]]]; auto. left. eapply del_in, Hk.
  - destruct (nth_error (running s) i) as [j|] eqn:E; [|discriminate]. inversion H; subst.
    assert (Hj := nth_in _ _ _ E). destruct K. constructor; cbn; try assumption.
    + intros k Hk. apply k_todo0. rewrite !in_app_iff in *. destruct Hk as [Hk|Hk]; auto. right. eapply del_in, Hk.
    + intros m Hm. apply in_app_or in Hm. destruct Hm as [Hm|Hm]; [auto|]. destruct m; try exact I. exists j.
      assert (Jj : In j jobs) by (apply k_todo0, in_or_app; right; exact Hj). split; [exact Jj|].
      destruct (what p j); cbn in Hm; try tauto; destruct Hm as [Hm|[]]; [discriminate|congruence].
  - destruct (nth_error (combs s) c) as [x|] eqn:E; [|discriminate]. unfold comb_step in H.
    assert (O := k_combs s K x (nth_in _ _ _ E)). destruct O as (O1 & O2 & O3).
    assert (FL : kcomb (flush x)).
    { split; [exact kres_nil|]. split; [|exact I]. cbn. intros rs Hr. destruct (isnil (c_res x)); [auto|].
      apply in_app_or in Hr. destruct Hr as [Hr|[<-|[]]]; auto. }
    destruct (c_pc x) as [| | |m| |] eqn:Epc.
    + destruct (should_stop s && isnil (queue s)) eqn:B; inversion H; subst; apply (crash_comb s c x); try assumption; exact (conj O1 (conj O2 I)).
    + destruct (stop_ s) eqn:B; inversion H; subst; apply (crash_comb s c x); try assumption; [exact (conj O1 (conj O2 I))|exact (conj kres_nil (conj O2 I))].
    + destruct (Nat.ltb (c_n x) (chunk p)).
      * destruct (queue s) as [|m q] eqn:Eq; [discriminate|]. inversion H; subst; clear H.
        apply (crash_comb (set_queue q s) c x); try assumption.
        -- destruct K. constructor; cbn; try assumption. intros z Hz. apply k_queue0. rewrite Eq. right; exact Hz.
        -- split; [exact O1|]. split; [exact O2|]. cbn. apply (k_queue s K). rewrite Eq. left; reflexivity.
      * inversion H; subst. apply (crash_comb s c x); assumption.
    + destruct m as [|r|]; inversion H; subst; clear H; [| |destruct NL].
      * apply (crash_comb (increase_cnt true s) c x); try assumption; [destruct K; constructor; assumption|]. split; [exact O1|]. split; [exact O2|exact I].
      * apply (crash_comb (increase_cnt false s) c x); try assumption; [destruct K; constructor; assumption|].
        split; [apply kres_collect; assumption|]. split; [exact O2|exact I].
    + destruct (c_thr x) as [|t l] eqn:Et; [|discriminate]. inversion H; subst; clear H. apply (crash_comb s c x); try assumption.
      split; [exact O1|]. split; [intros rs []|exact I].
    + discriminate.
  - destruct (nth_error (combs s) c) as [x|] eqn:E; [|discriminate]. destruct (c_pc x) eqn:Epc; try discriminate.
    destruct (Nat.ltb (c_n x) (chunk p)); [|discriminate]. inversion H; subst. apply (crash_comb s c x); try assumption.
    assert (O := k_combs s K x (nth_in _ _ _ E)). destruct O as (O1 & O2 & O3).
    split; [exact kres_nil|]. split; [|exact I]. cbn. intros rs Hr. destruct (isnil (c_res x)); [auto|].
    apply in_app_or in Hr. destruct Hr as [Hr|[<-|[]]]; auto.
  - destruct (nth_error (combs s) c) as [x|] eqn:E; [|discriminate]. destruct (nth_error (c_thr x) i) as [rs|] eqn:Et; [|discriminate].
    assert (O := k_combs s K x (nth_in _ _ _ E)). destruct O as (O1 & O2 & O3).
    assert (Hr := nth_in _ _ _ Et). destruct (O2 rs Hr) as [Or Cr].
    destruct (g_combs _ _ _ s G x (nth_in _ _ _ E)) as (_ & G2 & _). specialize (G2 rs Hr).
    destruct (okres_combine kind rs G2) as (b & Eb & Ob & Pb). rewrite Eb in H. inversion H; subst; clear H.
    match goal with |- context [set_comb c ?z s] => set (y := z) in *; assert (GY : Crash (set_comb c y s)) end.
    { apply (crash_comb s c x); try assumption. split; [exact O1|]. split; [intros q Hq; apply O2; eapply del_in, Hq|exact O3]. }
    destruct GY. constructor; try assumption. unfold set_outq. cbn [outq]. intros z Hz. apply in_app_or in Hz. destruct Hz as [Hz|[<-|[]]]; [apply k_outq0; exact Hz|].
    split; [|exact (closed_perm _ _ Pb Cr)]. rewrite (combine_keys rs b); [exact Or|intros k l Hi; apply (G2 k l Hi)|exact Eb].
  - destruct (nth_error (writers s) w) as [x|] eqn:E; [|discriminate]. unfold writer_step in H.
    assert (O := k_writers s K x (nth_in _ _ _ E)).
    destruct x as [| | | |b|[|[k [rows|]] b]|].
    + destruct (ready s && isnil (outq s)) eqn:B; inversion H; subst; apply (crash_writer s w WTop); try assumption; exact I.
    + destruct (stop_ s) eqn:B; inversion H; subst; apply (crash_writer s w WTest); try assumption; exact I.
    + inversion H; subst. apply (crash_writer (set_flags (Nat.ltb (List.length (outq s)) (cache p)) (should_stop s) (stop_ s) (ready s) s) w WGate); [destruct K; constructor; assumption|exact E|exact I].
    + destruct (outq s) as [|b q] eqn:Eq; [discriminate|]. inversion H; subst. apply (crash_writer (set_outq q s) w WGet); try assumption.
      * destruct K. constructor; cbn; try assumption. intros z Hz. apply k_outq0. rewrite Eq. right; exact Hz.
      * cbn. apply (k_outq s K). rewrite Eq. left; reflexivity.
    + destruct (locked s); [discriminate|]. inversion H; subst. apply (crash_writer s w (WHave b)); try assumption.
      destruct O as [[O|O] C]; cbn.
      * destruct b; [|discriminate]. split; [left; reflexivity|]. intros x [].
      * split; [right; exists []; exact O|]. intros x Hx. apply (covered_incl (brows b)); [|exact (C x Hx)]. intros z Hz. apply in_or_app. right; exact Hz.
    + inversion H; subst. apply (crash_writer s w (WWriting [])); try assumption.
    + inversion H; subst. clear H. destruct O as [O C]. destruct O as [O|[pre O]]; [discriminate|]. cbn [map fst] in O.
      assert (B0 : brows ((k, Some rows) :: b) = map (pair k) rows ++ brows b) by reflexivity.
      assert (NB : k = ra -> b = []).
      { intros ->. destruct (exists_last (l := ra :: map fst b)) as (l' & z & Ez); [discriminate|]. rewrite Ez in O. rewrite app_assoc in O.
        apply app_inj_tail in O. destruct O as [O1 O2]. subst z. destruct l' as [|a l']; [destruct b; [reflexivity|discriminate]|]. exfalso.
        cbn in Ez. inversion Ez; subst a. rewrite <- O1 in KN. rewrite <- app_assoc in KN. apply NoDup_remove_2 in KN. apply KN.
        apply in_or_app. right. cbn. apply in_or_app. right. left; reflexivity. }
      assert (IN : incl (store s) (store s ++ map (pair k) rows)) by (intros z Hz; apply in_or_app; auto).
      destruct K. constructor; cbn; try assumption.
      * intros z Hz. apply upd_in in Hz. destruct Hz as [->|Hz]; [|apply (kwriter_mono (store s)); [exact IN|apply k_writers0; exact Hz]].
        split.
        -- destruct b as [|kb b]; [left; reflexivity|]. right. exists (pre ++ [k]). rewrite <- app_assoc. exact O.
        -- intros x Hx. assert (Z := C x). rewrite B0 in Z. rewrite <- app_assoc. apply Z. apply in_or_app. right; exact Hx.
      * intros x Hx. apply in_app_or in Hx. destruct Hx as [Hx|Hx].
        -- apply (covered_incl (store s)); [exact IN|apply k_store0; exact Hx].
        -- apply in_map_iff in Hx. destruct Hx as (r & Er & Hr). inversion Er; subst. rewrite (NB eq_refl) in *.
           assert (Z := C x). rewrite B0 in Z. cbn [brows flat_map] in Z. rewrite app_nil_r in Z. apply Z.
           apply in_map. exact Hr.
    + destruct NL.
    + discriminate.
  - destruct (nth_error (writers s) w) as [x|] eqn:E; [|discriminate]. destruct x; try discriminate. inversion H; subst; clear H.
    apply (crash_writer s w WGet); try assumption; exact I.
  - destruct NL.
  - destruct (main s).
    + destruct (isnil (todo s) && isnil (running s)); inversion H; subst; destruct K; constructor; assumption.
    + destruct (forallb _ (combs s)); inversion H; subst; destruct K; constructor; assumption.
    + destruct (forallb _ (writers s)); inversion H; subst; destruct K; constructor; assumption.
    + discriminate.
  - congruence.
Qed.
Lemma crash_init : Crash (init p jobs).
Proof.
  constructor; cbn; try tauto.
  - intros j Hj. rewrite app_nil_r in Hj. exact Hj.
  - intros x Hx. apply repeat_spec in Hx. subst. split; [exact kres_nil|]. split; [intros rs []|exact I].
  - intros w Hw. apply repeat_spec in Hw. subst. exact I.
  - exact closed_nil.
Qed.
Lemma crash_run es : forall s s', Good p jobs kind s -> Crash s -> undisturbed es -> run p es s = Some s' -> Crash s'.
Proof.
  induction es as [|e es IH]; intros s s' G K U H; cbn [run] in H; [inversion H; subst; exact K|].
  destruct (plain_cons _ _ U) as [P U']. destruct (step p e s) as [s1|] eqn:E; [|discriminate].
  apply (IH s1 s'); [eapply good_step; eassumption|eapply crash_step; eassumption|exact U'|exact H].
Qed.
End Crash.
End P2.
