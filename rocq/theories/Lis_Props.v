(** C195: the log-file of a run *)
From Coq Require Import String Arith Bool Lia List.
From Verif Require Import Lis_Model Lis_Spec.
Import ListNotations.
Local Open Scope list_scope.

(** what is put into the queue before the end is announced *)
Definition passes (level : nat) (r : record) : bool := Nat.leb (sender_level level (r_proc r)) (r_level r).
Definition shown (level : nat) (r : record) : bool := Nat.leb level (r_level r).
Fixpoint before (q : list (option record)) : list record := match q with Some r :: t => r :: before t | _ => [] end.
Lemma before_app_r q r : ~ In None q -> before (q ++ [Some r]) = before q ++ [r].
Proof. induction q as [|[x|] q IH]; intros H; cbn; [reflexivity|rewrite IH by (intros I; apply H; right; exact I); reflexivity|elim H; left; reflexivity]. Qed.
Lemma before_app_in q l : In None q -> before (q ++ l) = before q.
Proof. induction q as [|[x|] q IH]; intros H; cbn; [destruct H|destruct H as [H|H]; [discriminate|rewrite IH by exact H; reflexivity]|reflexivity]. Qed.
Lemma before_app_none q : before (q ++ [None]) = before q.
Proof. induction q as [|[x|] q IH]; cbn; [reflexivity|rewrite IH; reflexivity|reflexivity]. Qed.
Definition finished (es : list event) : Prop := In Finish es.
Lemma logged_app es e : logged (es ++ [e]) = if existsb (fun x => match x with Finish => true | _ => false end) es then logged es else logged es ++ (match e with Logs r => [r] | _ => [] end).
Proof.
  induction es as [|x es IH]; [destruct e; reflexivity|]. destruct x; cbn; rewrite ?IH; try reflexivity; destruct (existsb _ es); reflexivity.
Qed.
Lemma finished_b es : existsb (fun x => match x with Finish => true | _ => false end) es = true <-> finished es.
Proof. rewrite existsb_exists. split; [intros (x & I & E); destruct x; try discriminate; exact I|intros I; exists Finish; split; [exact I|reflexivity]]. Qed.

(** the invariant: file and queue together are what was sent before the end was announced *)
Definition Inv (level : nat) (es : list event) (s : state) : Prop :=
  (listening s = true -> file s ++ filter (shown level) (before (queue s)) = filter (shown level) (filter (passes level) (logged es)) /\ (In None (queue s) <-> finished es)) /\
  (listening s = false -> exists n, file s = filter (shown level) (firstn n (filter (passes level) (logged es)))) /\
  (listening s = false -> ~ In Interrupt es -> finished es /\ file s = filter (shown level) (filter (passes level) (logged es))).
Lemma firstn_app_l {A} (l m : list A) n : exists k, firstn n l = firstn k (l ++ m).
Proof. destruct (le_lt_dec n (List.length l)) as [H|H]; [exists n; rewrite firstn_app; replace (n - List.length l) with 0 by lia; cbn; rewrite app_nil_r; reflexivity|exists (List.length l); rewrite firstn_app, Nat.sub_diag, (firstn_all2 (n := n)) by lia; cbn; rewrite app_nil_r, firstn_all; reflexivity]. Qed.
Lemma inv_step level es e s : Inv level es s -> Inv level (es ++ [e]) (step level s e).
Proof.
  intros (I1 & I2 & I3).
  assert (Fin : finished (es ++ [e]) <-> finished es \/ e = Finish) by (unfold finished; rewrite in_app_iff; cbn; intuition).
  destruct (listening s) eqn:Ls.
  - destruct (I1 eq_refl) as [E N]. clear I1 I2 I3. destruct e as [r| | |]; cbn [step].
    + destruct (Nat.leb _ _) eqn:P.
      * split; [|split; intros X; cbn in X; congruence]. intros _. cbn [file queue]. rewrite logged_app. destruct (existsb _ es) eqn:Ex.
        { apply finished_b in Ex. split; [rewrite before_app_in by (apply N; exact Ex); exact E|]. rewrite in_app_iff, Fin, N. cbn. intuition; discriminate. }
        assert (Nf : ~ finished es) by (intros F; apply finished_b in F; congruence). split.
        { rewrite before_app_r by (intros I; apply Nf, N, I). rewrite !filter_app, app_assoc, E. f_equal. cbn [filter]. unfold passes at 1. rewrite P. reflexivity. }
        rewrite in_app_iff, Fin, N. cbn. intuition; discriminate.
      * split; [|split; intros X; congruence]. intros _. rewrite logged_app. destruct (existsb _ es).
        { split; [exact E|]. rewrite Fin, N. intuition; discriminate. }
        split; [rewrite !filter_app; cbn [filter]; unfold passes at 2; rewrite P; cbn [filter]; rewrite app_nil_r; exact E|]. rewrite Fin, N. intuition; discriminate.
    + split; [|split; intros X; cbn in X; congruence]. intros _. cbn [file queue]. rewrite logged_app. rewrite before_app_none, in_app_iff, Fin. split; [destruct (existsb _ es); [exact E|rewrite app_nil_r; exact E]|]. cbn. intuition.
    + assert (Lg : logged (es ++ [Listen]) = logged es) by (rewrite logged_app; destruct (existsb _ es); [reflexivity|apply app_nil_r]). rewrite Ls. destruct (queue s) as [|[r|] q] eqn:Q.
      * split; [|split; intros X; congruence]. intros _. rewrite Lg, Q, Fin, <- N. split; [exact E|]. intuition; discriminate.
      * split; [|split; intros X; cbn in X; congruence]. intros _. cbn [file queue]. rewrite Lg, Fin. cbn [before filter] in E. split.
        { unfold shown at 1 in E. destruct (Nat.leb level (r_level r)); [rewrite <- app_assoc; exact E|exact E]. }
        rewrite <- N. cbn. intuition; discriminate.
      * cbn [before filter] in E. rewrite app_nil_r in E. split; [cbn; intros X; congruence|]. rewrite Lg. cbn [file listening]. split.
        { intros _. exists (List.length (filter (passes level) (logged es))). rewrite firstn_all. exact E. }
        intros _ _. split; [apply Fin; left; apply N; left; reflexivity|exact E].
    + assert (Lg : logged (es ++ [Interrupt]) = logged es) by (rewrite logged_app; destruct (existsb _ es); [reflexivity|apply app_nil_r]). split; [cbn; intros X; congruence|]. rewrite Lg. cbn [file listening]. split.
      { intros _. revert E. clear. generalize (filter (passes level) (logged es)) as l. intros l. generalize (before (queue s)) as b. intros b. revert l. induction (file s) as [|x f IH].
        - intros l _. exists 0. reflexivity.
        - intros l E. induction l as [|y l IHl]; [cbn in E; discriminate|]. cbn in E. destruct (shown level y) eqn:Sy.
          + injection E as -> E. destruct (IH l E) as [n En]. exists (S n). cbn. rewrite Sy, En. reflexivity.
          + destruct (IHl E) as [n En]. exists (S n). cbn. rewrite Sy. exact En. }
      intros _ X. elim X. apply in_or_app. right. left. reflexivity.
  - clear I1. destruct (I2 eq_refl) as [n En]. specialize (I3 eq_refl).
    assert (Stay : listening (step level s e) = false /\ file (step level s e) = file s) by (destruct e as [r| | |]; cbn [step]; [destruct (Nat.leb _ _); split; [exact Ls|reflexivity|exact Ls|reflexivity]|split; [exact Ls|reflexivity]|rewrite Ls; split; [exact Ls|reflexivity]|split; reflexivity]).
    destruct Stay as [S1 S2]. split; [intros X; congruence|]. rewrite S2. split.
    + intros _. rewrite logged_app. destruct (existsb _ es); [exists n; exact En|]. rewrite filter_app. destruct (firstn_app_l (filter (passes level) (logged es)) (filter (passes level) (match e with Logs r => [r] | _ => [] end)) n) as [k Ek]. exists k. rewrite <- Ek. exact En.
    + intros _ Hi. destruct I3 as [F E]; [intros I; apply Hi, in_or_app; left; exact I|]. split; [apply Fin; left; exact F|]. rewrite logged_app. rewrite (proj2 (finished_b es) F). exact E.
Qed.
Lemma inv_run level es : Inv level es (run level true es).
Proof.
  unfold run. induction es as [|e es IH] using rev_ind.
  - split; [|split; intros X; discriminate]. intros _. cbn. split; [reflexivity|]. unfold finished. cbn. tauto.
  - rewrite fold_left_app. cbn [fold_left]. apply inv_step; exact IH.
Qed.

Lemma shown_passes level l : (10 <= level \/ (forall r n, In r l -> r_proc r = Worker n -> r_level r < level \/ 10 <= r_level r)) -> filter (shown level) (filter (passes level) l) = filter (shown level) l.
Proof.
  intros H. induction l as [|r l IH]; [reflexivity|]. assert (IH' : filter (shown level) (filter (passes level) l) = filter (shown level) l) by (apply IH; destruct H as [H|H]; [left; exact H|right; intros x n I; apply H; right; exact I]).
  cbn. destruct (passes level r) eqn:P; cbn; rewrite IH'; [reflexivity|]. destruct (shown level r) eqn:S; [exfalso|reflexivity].
  unfold passes, sender_level in P. unfold shown in S. apply Nat.leb_gt in P. apply Nat.leb_le in S. destruct (r_proc r) eqn:Ep; try lia. destruct H as [H|H]; [lia|]. destruct (H r n (or_introl eq_refl) Ep); lia.
Qed.

(** when the listener has ended and was not interrupted, the file holds all messages of at least the level, in the order in which they were logged *)
Theorem C195_complete : forall level es, 10 <= level -> ~ In Interrupt es -> listening (run level true es) = false ->
  In Finish es /\ file (run level true es) = wanted level es.
Proof.
  intros level es Hl Hi Hs. destruct (inv_run level es) as (_ & _ & I3). destruct (I3 Hs Hi) as [F E]. split; [exact F|]. rewrite E. unfold wanted. apply shown_passes. left. exact Hl.
Qed.
Print Assumptions C195_complete.
(** ... and so all messages of each process in their order *)
Theorem C195_process : forall level es p, 10 <= level -> ~ In Interrupt es -> listening (run level true es) = false ->
  of_proc p (file (run level true es)) = filter (fun r => Nat.leb level (r_level r)) (of_proc p (logged es)).
Proof.
  intros level es p Hl Hi Hs. rewrite (proj2 (C195_complete level es Hl Hi Hs)). unfold of_proc, wanted. induction (logged es) as [|r l IH]; [reflexivity|]. cbn. destruct (Nat.leb level (r_level r)) eqn:E1, (p (r_proc r)) eqn:E2; cbn; rewrite ?E1, ?E2, IH; reflexivity.
Qed.
Print Assumptions C195_process.
(** every level: the messages of the pool below level 10 are missing, nothing else *)
Theorem C195_exact : forall level es, ~ In Interrupt es -> listening (run level true es) = false ->
  file (run level true es) = filter (fun r => match r_proc r with Worker _ => Nat.leb 10 (r_level r) | _ => true end) (wanted level es).
Proof.
  intros level es Hi Hs. destruct (inv_run level es) as (_ & _ & I3). destruct (I3 Hs Hi) as [_ E]. rewrite E. unfold wanted. clear E I3. induction (logged es) as [|r l IH]; [reflexivity|].
  cbn [filter]. unfold passes at 1, sender_level. destruct (Nat.leb level (r_level r)) eqn:L.
  - cbn [filter]. destruct (r_proc r); cbn [filter]; rewrite ?L; [|destruct (Nat.leb 10 (r_level r))| |]; cbn [filter]; try (unfold shown at 1; rewrite L; f_equal); exact IH.
  - destruct (r_proc r); rewrite ?L; try exact IH. destruct (Nat.leb 10 (r_level r)); [cbn [filter]; unfold shown at 1; rewrite L|]; exact IH.
Qed.
Print Assumptions C195_exact.
(** at all times, in every interleaving: the file holds messages of the run, in their order, without gaps and none twice *)
Theorem C195_always : forall level es, exists n, file (run level true es) = filter (fun r => Nat.leb level (r_level r)) (firstn n (filter (fun r => Nat.leb (sender_level level (r_proc r)) (r_level r)) (logged es))).
Proof.
  intros level es. destruct (inv_run level es) as (I1 & I2 & _). destruct (listening (run level true es)) eqn:Ls; [|exact (I2 eq_refl)]. destruct (I1 eq_refl) as [E _]. clear I1 I2.
  revert E. change (fun r => Nat.leb (sender_level level (r_proc r)) (r_level r)) with (passes level). change (fun r => Nat.leb level (r_level r)) with (shown level). generalize (filter (passes level) (logged es)) as l. generalize (filter (shown level) (before (queue (run level true es)))) as b. induction (file (run level true es)) as [|x f IH].
  - intros b l _. exists 0. reflexivity.
  - intros b l E. induction l as [|y l IHl]; [cbn in E; discriminate|]. cbn in E. destruct (shown level y) eqn:Sy.
    + injection E as -> E. destruct (IH b l E) as [n En]. exists (S n). cbn. rewrite Sy, En. reflexivity.
    + destruct (IHl E) as [n En]. exists (S n). cbn. rewrite Sy. exact En.
Qed.
Print Assumptions C195_always.
(** the run can be ended (listener.join() returns): once the end is announced, the listener ends after as many steps as the queue is long, whatever else happens in between *)
Lemma listens level es s : listening s = true -> In None (queue s) -> ~ In Interrupt es -> List.length (queue s) <= List.length (filter (fun e => match e with Listen => true | _ => false end) es) -> listening (fold_left (step level) es s) = false.
Proof.
  revert s. induction es as [|e es IH]; intros s Ls Hn Hi Hl; [cbn in Hl; destruct (queue s); [destruct Hn|cbn in Hl; lia]|].
  assert (D : forall es s, listening s = false -> listening (fold_left (step level) es s) = false) by (clear; induction es as [|e es IH]; intros s H; [exact H|]; cbn; apply IH; destruct e; cbn; [destruct (Nat.leb _ _); exact H|exact H|rewrite H; exact H|reflexivity]).
  assert (Hi' : ~ In Interrupt es) by (intros I; apply Hi; right; exact I).
  (* all that matters is the position of the first None *)
  set (pos := fix pos (q : list (option record)) : nat := match q with [] => 0 | None :: _ => 1 | Some _ :: t => S (pos t) end).
  assert (G : forall es s, listening s = true -> In None (queue s) -> ~ In Interrupt es -> pos (queue s) <= List.length (filter (fun e => match e with Listen => true | _ => false end) es) -> listening (fold_left (step level) es s) = false).
  { clear - D. induction es as [|e es IH]; intros s Ls Hn Hi Hl.
    - exfalso. destruct (queue s) as [|[r|] q]; [destruct Hn|cbn in Hl; lia|cbn in Hl; lia].
    - assert (Hi' : ~ In Interrupt es) by (intros I; apply Hi; right; exact I). cbn [fold_left].
      assert (Pa : forall q x, In None q -> pos (q ++ x) = pos q) by (clear; induction q as [|[r|] q IH]; intros x H; cbn; [destruct H|destruct H as [H|H]; [discriminate|rewrite IH by exact H; reflexivity]|reflexivity]).
      destruct e as [r| | |]; cbn [step filter] in *.
      + destruct (Nat.leb _ _); apply IH; try assumption; cbn [queue listening]; [apply in_or_app; left; exact Hn|rewrite Pa by exact Hn; exact Hl].
      + apply IH; try assumption; cbn [queue listening]; [apply in_or_app; left; exact Hn|rewrite Pa by exact Hn; exact Hl].
      + rewrite Ls. destruct (queue s) as [|[r|] q]; [destruct Hn| |apply D; reflexivity]. apply IH; try assumption; cbn [queue listening]; [reflexivity|destruct Hn as [H|H]; [discriminate|exact H]|cbn in Hl; lia].
      + elim Hi. left. reflexivity. }
  apply (G (e :: es) s); try assumption. eapply Nat.le_trans; [|exact Hl]. clear. induction (queue s) as [|[r|] q IH]; cbn; lia.
Qed.
Theorem C195_ends : forall level es later, In Finish es -> ~ In Interrupt es -> ~ In Interrupt later ->
  List.length (queue (run level true es)) <= List.length (filter (fun e => match e with Listen => true | _ => false end) later) ->
  listening (run level true (es ++ later)) = false /\ wanted level (es ++ later) = wanted level es.
Proof.
  intros level es later Hf Hi Hi' Hl. split.
  - unfold run. rewrite fold_left_app. fold (run level true es). destruct (listening (run level true es)) eqn:Ls.
    + apply listens; try assumption. destruct (inv_run level es) as (I1 & _). apply (proj2 (I1 Ls)). exact Hf.
    + generalize dependent (run level true es). clear. intros s _ Ls. revert s Ls. induction later as [|e es IH]; intros s H; [exact H|]. cbn. apply IH. destruct e; cbn; [destruct (Nat.leb _ _); exact H|exact H|rewrite H; exact H|reflexivity].
  - unfold wanted. f_equal. clear Hi Hi' Hl. induction es as [|e es IH]; [destruct Hf|]. destruct Hf as [->|Hf]; [reflexivity|]. destruct e; cbn; try reflexivity; rewrite IH by exact Hf; reflexivity.
Qed.
Print Assumptions C195_ends.
(** without a folder nothing is written *)
Theorem C195_no_folder : forall level es, file (run level false es) = [].
Proof.
  intros level es. unfold run. assert (G : forall es s, listening s = false -> file s = [] -> file (fold_left (step level) es s) = []); [|apply G; reflexivity].
  clear. induction es as [|e es IH]; intros s H F; [exact F|]. cbn. apply IH; destruct e; cbn; try (destruct (Nat.leb _ _)); try rewrite H; cbn; try reflexivity; assumption.
Qed.
Print Assumptions C195_no_folder.
(** a log-file of all messages lacks those of the pool below level 10 *)
Theorem C195_low_levels_refuted : exists level es, ~ In Interrupt es /\ listening (run level true es) = false /\ file (run level true es) <> wanted level es.
Proof.
  exists 1, [Logs (mkrecord (Worker 1) 5 "a"); Finish; Listen]. split; [cbn; intuition; discriminate|]. split; [reflexivity|]. cbn. discriminate.
Qed.
Print Assumptions C195_low_levels_refuted.
(** ctrl+c reaches the listener as well: what is logged because of it is not in the file *)
Theorem C195_interrupt_refuted : forall level es es', file (run level true (es ++ Interrupt :: es')) = file (run level true es).
Proof.
  intros level es es'. unfold run. rewrite fold_left_app. cbn [fold_left step]. generalize (fold_left (step level) es (start true)). intros s.
  assert (G : forall es s, listening s = false -> file (fold_left (step level) es s) = file s); [|rewrite G; reflexivity].
  clear. induction es as [|e es IH]; intros s H; [reflexivity|]. cbn. rewrite IH; destruct e; cbn; try (destruct (Nat.leb _ _)); try rewrite H; cbn; try reflexivity; exact H.
Qed.
Print Assumptions C195_interrupt_refuted.

(** main process and worker log, the run ends while the queue is still full *)
Example C195_example : let es := [Logs (mkrecord Main 21 "start"); Logs (mkrecord (Worker 1) 10 "debug"); Listen; Logs (mkrecord (Worker 1) 30 "warning"); Finish; Listen; Listen; Listen] in
  10 <= 21 /\ ~ In Interrupt es /\ listening (run 21 true es) = false /\ map r_text (file (run 21 true es)) = ["start"; "warning"]%string.
Proof. cbn. intuition; try discriminate. lia. Qed.
