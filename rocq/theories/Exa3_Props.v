(** Exact outcomes of C93, C120 and C226. *)
From Coq Require Import ZArith Bool Arith Lia String List.
From Verif Require Import Base GF_Model Pip_Model Ids_Model Fit_Model Fit_Spec Fit_Proofs Fit2_Proofs Fit3_Proofs Res_Model Res_Spec Res2_Proofs Res_Props.
From Verif Require Thr_Model Thr_Spec.
Import ListNotations.
Local Open Scope list_scope.

(** ** C93: a feature is fitted if and only if the reader returns a table with rows, alone or with at least one further element *)
Theorem C93_exactly : forall (H : Type) (dumppath : bool) (fit : nat * aux -> call H) (v : reader_value), (forall d, exists h, fit d = Value h) ->
  (exists h, evalfunc None dumppath None (Value v) fit = RetFit h) <->
  (exists n, n <> 0 /\ (v = RFrame n \/ exists k, v = RSeq (Some n) (S k))).
Proof.
  intros H dp fit v F. split.
  - intros [h E]. unfold evalfunc, evalbody, split_read in E. destruct v as [n|[n|] m| |].
    + destruct n as [|n]; [destruct dp; discriminate E|]. exists (S n). split; [discriminate|]. now left.
    + destruct m as [|m]; [destruct dp; discriminate E|]. destruct n as [|n]; [destruct m, dp; discriminate E|]. exists (S n). split; [discriminate|].
      right. now exists m.
    + destruct dp; discriminate E.
    + destruct dp; discriminate E.
    + destruct dp; discriminate E.
  - intros (n & N & V). destruct n as [|n]; [congruence|]. unfold evalfunc, evalbody, split_read.
    destruct V as [->|[k ->]]; [|destruct k]; cbn [Nat.eqb]; match goal with |- context [fit ?d] => destruct (F d) as [h ->] end; now exists h.
Qed.
Print Assumptions C93_exactly.
Example C93_exactly_example : (forall d : nat * aux, exists h, (fun d => Value (fst d)) d = Value h) /\
  evalfunc None true None (Value (RSeq (Some 3) 2)) (fun d => Value (fst d)) = RetFit 3 /\
  forall h, evalfunc None true None (Value (RSeq (Some 3) 0)) (fun d => Value (fst d)) <> RetFit h.
Proof. split; [intros d; eexists; reflexivity|]. split; [reflexivity|intros h E; discriminate E]. Qed.

(** ** C120: the nodes are those of the runs if and only if increasing numbers imply contiguous groups *)
Lemma app_seq : forall (a b : list nat) s n, a ++ b = seq s n -> a = seq s (List.length a) /\ b = seq (s + List.length a) (List.length b) /\ n = List.length a + List.length b.
Proof.
  induction a as [|x a IH]; intros b s n E.
  - cbn in *. rewrite Nat.add_0_r. assert (L := f_equal (@List.length nat) E). rewrite seq_length in L. subst n. auto.
  - destruct n as [|n]; [discriminate|]. cbn in E. injection E as -> E. destruct (IH b (S s) n E) as (A & B & C). cbn [List.length seq Nat.add].
    rewrite <- A. rewrite Nat.add_succ_r. split; [reflexivity|]. split; [exact B|lia].
Qed.
Lemma seg_interval segs n s i j k : concat segs = seq 0 n -> In s segs -> In i s -> In k s -> i <= j <= k -> In j s.
Proof.
  intros C I Hi Hk B. apply in_split in I as (s1 & s2 & ->). rewrite concat_app in C. cbn [concat] in C.
  apply app_seq in C as (_ & C & _). apply app_seq in C as (A & _ & _). rewrite A in Hi, Hk |- *. rewrite in_seq in *. lia.
Qed.
Theorem C120_exactly : forall (V : Type) gi index dyn (val : list V), List.length index = List.length dyn -> List.length gi = List.length dyn ->
  List.length val = List.length (uniq dyn) ->
  (exists segs nodes, is_runs dyn segs /\ interp_nodes gi index dyn val = Ok nodes /\ nodes_of index dyn val segs nodes) <->
  (sorted (group_values gi dyn) -> contiguous dyn).
Proof.
  intros V gi index dyn val H1 H2 H3. split; [|now apply C120_nodes].
  intros (segs & nodes & (C & E & D) & I & L & _) S.
  destruct (interp_groups gi index dyn val H1 H2 H3 S) as (nodes' & I' & L' & _). rewrite I in I'. injection I' as <-.
  unfold rowsets in L'. rewrite map_length in L'. rewrite L' in L. clear L' I D nodes.
  set (val_of := fun s : list nat => nth (hd 0%nat s) dyn 0%Z).
  assert (Hv : forall s i, In s segs -> In i s -> nth i dyn 0%Z = val_of s).
  { intros s i Hs Hi. destruct (E s Hs) as [_ Q]. apply Q; [exact Hi|]. destruct s; [contradiction|now left]. }
  assert (Hs : forall i, i < List.length dyn -> exists s, In s segs /\ In i s).
  { intros i Hi. assert (X : In i (concat segs)) by (rewrite C; apply in_seq; lia). apply in_concat in X as (s & A & B). now exists s. }
  assert (N : NoDup (map val_of segs)).
  { apply (@NoDup_incl_NoDup _ (uniq dyn)); [apply NoDup_uniq|rewrite map_length; lia|].
    intros x X. apply (proj1 (in_uniq dyn x)) in X. apply (In_nth _ _ 0%Z) in X as (i & Hi & <-). destruct (Hs i Hi) as (s & A & B).
    rewrite (Hv s i A B). now apply in_map. }
  intros i j k B Hk Q. destruct (Hs i) as (a & Ia & Ha); [lia|]. destruct (Hs k Hk) as (b & Ib & Hb).
  assert (a = b) as <-.
  { rewrite (Hv a i Ia Ha), (Hv b k Ib Hb) in Q. clear - N Ia Ib Q. induction segs as [|s r IH]; [contradiction|].
    cbn in N. apply NoDup_cons_iff in N as [N1 N2]. destruct Ia as [->|Ia], Ib as [->|Ib]; auto.
    - exfalso. apply N1. rewrite Q. now apply in_map.
    - exfalso. apply N1. rewrite <- Q. now apply in_map. }
  rewrite (Hv a i Ia Ha). apply (Hv a j Ia). apply (seg_interval segs (List.length dyn) a i j k); auto. lia.
Qed.
Print Assumptions C120_exactly.
Example C120_exactly_example : let dyn := [1; 1; 2]%Z in List.length [5; 6; 7]%Z = List.length dyn /\ List.length ["a"; "b"]%string = List.length (uniq dyn) /\
  (sorted (group_values dyn dyn) -> contiguous dyn).
Proof.
  split; [reflexivity|]. split; [reflexivity|]. intros _ i j k B Hk. cbn in Hk.
  assert (K : k = 2) by lia. subst k. assert (J : j = 1) by lia. subst j. assert (I : i = 0) by lia. subst i. discriminate.
Qed.

(** ** C226: the thread ends with an exception if and only if it still has to do something when the manager is shut down *)
Section Thread.
Import Thr_Model Thr_Spec.
Lemma down es : forall w, up w = false -> up (run w es) = false /\
  (th w = Ended \/ th w = Died -> th (run w es) = th w) /\
  (th w = Waiting /\ finished w = true -> th (run w es) = if existsb (fun e => match e with Step => true | _ => false end) es then Ended else Waiting) /\
  (th w = Printing \/ th w = Waiting /\ finished w = false -> th (run w es) = if existsb (fun e => match e with Step => true | _ => false end) es then Died else th w).
Proof.
  induction es as [|e es IH]; intros w U.
  - cbn. repeat split; auto; tauto.
  - destruct w as [ss st u qu fi t li]. cbn in U. subst u. unfold run in *. cbn [fold_left existsb].
    specialize (IH (step (mkworld ss st false qu fi t li) e)). destruct e; try (apply IH; reflexivity).
    destruct t, fi; cbn in IH |- *; destruct (IH eq_refl) as (A & B & C & D); repeat split; auto; try tauto; try (intros [X Y]; discriminate);
    try (intros [X|X]; try discriminate X; destruct X; discriminate); intros _; apply B; auto.
Qed.
Theorem C226_exactly : forall q es es', ~ In Shutdown es -> let w := run (started q) es in
  th (run (started q) (es ++ Shutdown :: es')) = Died <-> In Step es' /\ th w <> Ended /\ (th w = Waiting -> finished w = false).
Proof.
  intros q es es' N w.
  assert (G : forall es w, ~ In Shutdown es -> up w = true -> th w <> Died -> th (run w es) <> Died).
  { clear. induction es as [|e es IH]; intros w N U T; [exact T|]. cbn [run fold_left]. fold (run (step w e) es).
    apply IH; [intros I; apply N; now right| |]; destruct w as [ss st u qu fi t li]; cbn in U, T; subst; destruct e; cbn; auto; try (exfalso; apply N; now left);
    destruct t, fi; cbn; try congruence; auto. }
  assert (Dd : th w <> Died) by (apply G; [exact N|reflexivity|discriminate]). clear G N.
  replace (run (started q) (es ++ Shutdown :: es')) with (run (step w Shutdown) es') by (unfold w, run; rewrite fold_left_app; reflexivity).
  destruct (down es' (step w Shutdown) eq_refl) as (_ & B & C & D).
  assert (X : In Step es' <-> existsb (fun e => match e with Step => true | _ => false end) es' = true).
  { rewrite existsb_exists. split; [intros I; now exists Step|intros (e & I & Q); destruct e; try discriminate; exact I]. }
  rewrite X. clear X. destruct w as [ss st u qu fi t li]. cbn in B, C, D, Dd |- *.
  destruct t; [destruct fi| | |]; try congruence.
  - rewrite (C (conj eq_refl eq_refl)). destruct (existsb _ es'); split; try discriminate; intros (P & _ & Q); try discriminate; discriminate (Q eq_refl).
  - rewrite (D (or_intror (conj eq_refl eq_refl))). destruct (existsb _ es'); split; auto; try discriminate; intros; try (repeat split; congruence); intuition discriminate.
  - rewrite (D (or_introl eq_refl)). destruct (existsb _ es'); split; auto; try discriminate; intros; try (repeat split; congruence); intuition discriminate.
  - rewrite (B (or_introl eq_refl)). split; [discriminate|]. intros (_ & Q & _). congruence.
Qed.
Example C226_exactly_example : ~ In Shutdown [Put; Step; Step; ShouldStop; Get; Stop] /\
  th (run (started 0) ([Put; Step; Step; ShouldStop; Get; Stop] ++ [Shutdown; Step])) = Died /\
  th (run (started 0) ([Put; Step; Step; ShouldStop; Get; Stop; Step; Step; Step] ++ [Shutdown; Step])) = Ended.
Proof. split; [cbn; intuition discriminate|split; reflexivity]. Qed.
End Thread.
Print Assumptions C226_exactly.
