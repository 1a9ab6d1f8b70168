(** From every reachable state of an undisturbed execution the pipeline can
    still finish. *)
From Coq Require Import List Arith Bool String Ascii Lia Permutation.
From Verif Require Import Base Base_Proofs Pip_Model Pip_Spec Pip_Proofs.
Import ListNotations.
Local Open Scope list_scope.

Section P3.
Context {Job Row : Type}.
Notation state := (@state Job Row).
Notation params := (@params Job Row).
Variable p : params.
Variable jobs : list Job.
Variable kind : string -> bool.
Hypothesis GT : forall j, In j jobs -> good_task kind (what p j).
Hypothesis PW : 1 <= n_worker p.
Hypothesis PC : 1 <= n_combiner p.
Hypothesis PS : 1 <= n_writer p.
Hypothesis CH : 1 <= chunk p.
Hypothesis CA : 1 <= cache p.
Notation Good := (Good p jobs kind).

Definition reach (s s' : state) : Prop := exists es, undisturbed es /\ run p es s = Some s'.
Lemma reach_refl s : reach s s.
Proof. exists []. split; [split; [|intros w]; intros []|reflexivity]. Qed.
Lemma reach_trans a b c : reach a b -> reach b c -> reach a c.
Proof.
  intros (e1 & [U1 V1] & R1) (e2 & [U2 V2] & R2). exists (e1 ++ e2). split.
  - split; [|intros w]; intros H; apply in_app_or in H; destruct H; firstorder.
  - rewrite run_app, R1. exact R2.
Qed.
Lemma reach_one e s s' : plain e -> step p e s = Some s' -> reach s s'.
Proof.
  intros [P1 P2] H. exists [e]. split; [|cbn [run]; rewrite H; reflexivity]. split.
  - intros [Z|[]]. congruence.
  - intros w [Z|[]]. exact (P2 w Z).
Qed.
Lemma reach_good s s' : Good s -> reach s s' -> Good s'.
Proof. intros G (es & U & R). exact (proj1 (good_run p jobs kind GT es s s' G U R)). Qed.
Ltac pl := split; [discriminate|intros ?; discriminate].

(** bring every element of a list component into a wanted state *)
Lemma sweep {A} (get : state -> list A) (Inv : state -> Prop) (W : A -> Prop) :
  (forall s i x, Inv s -> nth_error (get s) i = Some x ->
     exists s' y, reach s s' /\ Inv s' /\ W y /\ get s' = upd i y (get s)) ->
  forall s, Inv s -> exists s', reach s s' /\ Inv s' /\ forall x, In x (get s') -> W x.
Proof using p.
  clear PW PC PS CH CA. intros One s I.
  assert (L : forall k, k <= List.length (get s) -> exists s', reach s s' /\ Inv s' /\ List.length (get s') = List.length (get s) /\
            forall i x, i < k -> nth_error (get s') i = Some x -> W x).
  { induction k as [|k IH]; intros Hk; [exists s; repeat split; [apply reach_refl|exact I|intros; lia]|].
    destruct IH as (s1 & R1 & I1 & L1 & F1); [lia|].
    destruct (nth_error (get s1) k) as [x|] eqn:E; [|apply nth_error_None in E; lia].
    destruct (One s1 k x I1 E) as (s2 & y & R2 & I2 & Wy & G2). exists s2. split; [eapply reach_trans; eassumption|]. split; [exact I2|].
    split; [rewrite G2, upd_length; exact L1|]. intros i z Hi Hz. rewrite G2 in Hz. destruct (Nat.eq_dec k i) as [<-|Hn].
    - rewrite (nth_upd_same _ _ _ _ E) in Hz. inversion Hz; subst. exact Wy.
    - rewrite nth_upd_other in Hz by exact Hn. apply (F1 i); [lia|exact Hz]. }
  destruct (L (List.length (get s)) (le_n _)) as (s' & R & I' & L' & F). exists s'. split; [exact R|]. split; [exact I'|].
  intros x Hx. apply In_nth_error in Hx. destruct Hx as [i Hi]. apply (F i); [|exact Hi]. rewrite <- L'. apply nth_error_Some. congruence.
Qed.

(** what the writers leave alone *)
Definition wframe (s s' : state) : Prop :=
  todo s' = todo s /\ running s' = running s /\ queue s' = queue s /\ combs s' = combs s /\ main s' = main s /\
  should_stop s' = should_stop s /\ ready s' = ready s /\ stop_ s' = stop_ s.
Lemma wframe_refl s : wframe s s.
Proof. repeat split. Qed.
Lemma wframe_trans a b c : wframe a b -> wframe b c -> wframe a c.
Proof. unfold wframe. intuition congruence. Qed.

Lemma upd_upd {A} i (x y : A) l : upd i x (upd i y l) = upd i x l.
Proof. revert i. induction l as [|z l IH]; intros [|i]; cbn; try reflexivity. rewrite IH. reflexivity. Qed.

(** a writer that holds the lock finishes *)
Lemma finish_write b : forall s w, Good s -> nth_error (writers s) w = Some (WWriting b) ->
  exists s', reach s s' /\ wframe s s' /\ outq s' = outq s /\ writers s' = upd w WTop (writers s).
Proof.
  induction b as [|[k [rows|]] b IH]; intros s w G E.
  - exists (set_writer w WTop s). split; [apply (reach_one (SStep w)); [pl|cbn [step]; rewrite E; reflexivity]|]. repeat split.
  - set (s1 := set_writer w (WWriting b) (add_store (map (pair k) rows) s)).
    assert (R : reach s s1) by (apply (reach_one (SStep w)); [pl|cbn [step]; rewrite E; reflexivity]).
    destruct (IH s1 w) as (s' & R' & F & Q & W); [eapply reach_good; eassumption|cbn; eapply nth_upd_same, E|].
    exists s'. split; [eapply reach_trans; eassumption|]. split; [exact F|]. split; [exact Q|]. rewrite W. cbn. apply upd_upd.
  - exfalso. assert (O := g_writers _ _ _ s G _ (nth_in _ _ _ E)). apply (O k None); [left; reflexivity|reflexivity].
Qed.

Definition nowrite (w : @wpc Row) : Prop := match w with WWriting _ => False | _ => True end.
Definition free (w : @wpc Row) : Prop := match w with WWriting _ | WHave _ => False | _ => True end.
Definition atop (w : @wpc Row) : Prop := match w with WTop | WDone => True | _ => False end.
Definition WI (s0 s : state) : Prop := Good s /\ wframe s0 s.

Lemma writers_unlock s : Good s -> exists s', reach s s' /\ (Good s' /\ wframe s s' /\ outq s' = outq s) /\ forall w, In w (writers s') -> nowrite w.
Proof.
  intros G. apply (sweep writers (fun s' => Good s' /\ wframe s s' /\ outq s' = outq s) nowrite).
  - intros s1 i x (G1 & F1 & Q1) E. destruct x as [| | | |b|b|].
    6:{ destruct (finish_write b s1 i G1 E) as (s2 & R & F & Q & W). exists s2, WTop. split; [exact R|]. split; [|split; [exact I|exact W]].
        split; [eapply reach_good; eassumption|]. split; [eapply wframe_trans; eassumption|congruence]. }
    all: match type of E with _ = Some ?x => exists s1, x end; (split; [apply reach_refl|]); (split; [auto|]); (split; [exact I|]);
         clear - E; revert i E; induction (writers s1) as [|z l IH]; intros [|i] E; cbn in *; try discriminate; [congruence|]; rewrite <- IH; [reflexivity|exact E].
  - split; [exact G|]. split; [apply wframe_refl|reflexivity].
Qed.

Lemma upd_same {A} i (x : A) l : nth_error l i = Some x -> upd i x l = l.
Proof. revert i. induction l as [|z l IH]; intros [|i] E; cbn in *; try discriminate; [congruence|]. rewrite IH; [reflexivity|exact E]. Qed.
Lemma unlocked s : (forall w, In w (writers s) -> nowrite w) -> @locked Job Row s = false.
Proof.
  intros H. unfold locked. destruct (existsb _ (writers s)) eqn:E; [|reflexivity]. apply existsb_exists in E.
  destruct E as (w & Hw & E). specialize (H w Hw). destruct w; try discriminate. destruct H.
Qed.

Lemma write_one s w b : Good s -> (forall x, In x (writers s) -> nowrite x) -> nth_error (writers s) w = Some (WHave b) ->
  exists s', reach s s' /\ wframe s s' /\ outq s' = outq s /\ writers s' = upd w WTop (writers s).
Proof.
  intros G U E. set (s1 := set_writer w (WWriting b) s).
  assert (R : reach s s1) by (apply (reach_one (SStep w)); [pl|cbn [step]; rewrite E; cbn [writer_step]; rewrite unlocked by exact U; reflexivity]).
  destruct (finish_write b s1 w) as (s' & R' & F & Q & W); [eapply reach_good; eassumption|cbn; eapply nth_upd_same, E|].
  exists s'. split; [eapply reach_trans; eassumption|]. split; [exact F|]. split; [exact Q|]. rewrite W. cbn. apply upd_upd.
Qed.

Lemma good_nostop s : Good s -> main s <> PEnd -> stop_ s = false.
Proof. intros G M. destruct (stop_ s) eqn:B; [|reflexivity]. elim M. exact (g_stop _ _ _ s G B). Qed.

(** from the top of the loop to the queue access *)
Lemma gate s w : Good s -> main s <> PEnd -> nth_error (writers s) w = Some WTest ->
  reach s (set_writer w WGet (set_flags (Nat.ltb (List.length (outq s)) (cache p)) (should_stop s) (stop_ s) (ready s) s)).
Proof.
  intros G M E. assert (B := good_nostop s G M). set (s1 := set_writer w WGate s).
  apply (reach_trans s s1); [apply (reach_one (SStep w)); [pl|cbn [step]; rewrite E; cbn [writer_step]; rewrite B; reflexivity]|].
  apply (reach_one (SStep w)); [pl|]. cbn [step]. unfold s1 at 1. cbn [writers set_writer]. rewrite (nth_upd_same _ _ _ _ E). cbn [writer_step].
  unfold s1, set_writer, set_flags. cbn. rewrite upd_upd. reflexivity.
Qed.

Lemma to_top s w x : Good s -> main s <> PEnd -> (forall y, In y (writers s) -> nowrite y) -> nth_error (writers s) w = Some x ->
  exists s' y, reach s s' /\ wframe s s' /\ outq s' = outq s /\ atop y /\ writers s' = upd w y (writers s).
Proof.
  intros G M U E.
  assert (GET : forall s1, nth_error (writers s1) w = Some WGet -> reach s1 (set_writer w WTop s1)).
  { intros s1 E1. apply (reach_one (STimeout w)); [pl|]. cbn [step]. rewrite E1. reflexivity. }
  assert (GATE : forall s1, nth_error (writers s1) w = Some WGate -> exists s', reach s1 s' /\ wframe s1 s' /\ outq s' = outq s1 /\ writers s' = upd w WTop (writers s1)).
  { intros s1 E1. eexists. split.
    - eapply reach_trans; [apply (reach_one (SStep w)); [pl|cbn [step]; rewrite E1; reflexivity]|]. apply GET. cbn. eapply nth_upd_same, E1.
    - split; [repeat split|]. split; [reflexivity|]. cbn. apply upd_upd. }
  destruct x as [| | | |b|b|].
  - exists s, WTop. split; [apply reach_refl|]. split; [apply wframe_refl|]. split; [reflexivity|]. split; [exact I|]. symmetry. apply upd_same, E.
  - destruct (GATE (set_writer w WGate s)) as (s' & R & F & Q & W); [cbn; eapply nth_upd_same, E|].
    exists s', WTop. split; [eapply reach_trans; [|exact R]|].
    + apply (reach_one (SStep w)); [pl|]. cbn [step]. rewrite E. cbn [writer_step]. rewrite (good_nostop s G M). reflexivity.
    + split; [exact F|]. split; [exact Q|]. split; [exact I|]. rewrite W. cbn. apply upd_upd.
  - destruct (GATE s E) as (s' & R & F & Q & W). exists s', WTop. split; [exact R|]. split; [exact F|]. split; [exact Q|]. split; [exact I|exact W].
  - exists (set_writer w WTop s), WTop. split; [apply GET, E|]. repeat split.
  - destruct (write_one s w b G U E) as (s' & R & F & Q & W). exists s', WTop. split; [exact R|]. split; [exact F|]. split; [exact Q|]. split; [exact I|exact W].
  - destruct (U _ (nth_in _ _ _ E)).
  - exists s, WDone. split; [apply reach_refl|]. split; [apply wframe_refl|]. split; [reflexivity|]. split; [exact I|]. symmetry. apply upd_same, E.
Qed.

Lemma all_top s : Good s -> main s <> PEnd ->
  exists s', reach s s' /\ Good s' /\ wframe s s' /\ outq s' = outq s /\ forall w, In w (writers s') -> atop w.
Proof.
  intros G M. destruct (writers_unlock s G) as (s1 & R1 & (G1 & F1 & Q1) & U1).
  destruct (sweep writers (fun s' => Good s' /\ wframe s s' /\ outq s' = outq s /\ forall w, In w (writers s') -> nowrite w) atop) with (s := s1)
    as (s2 & R2 & (G2 & F2 & Q2 & _) & A2).
  - intros t i x (Gt & Ft & Qt & Ut) E. destruct (to_top t i x Gt) as (t' & y & R & F & Q & A & W); try assumption.
    + destruct Ft as (_ & _ & _ & _ & Z & _). congruence.
    + exists t', y. split; [exact R|]. split; [|split; [exact A|exact W]]. split; [eapply reach_good; eassumption|].
      split; [eapply wframe_trans; eassumption|]. split; [congruence|]. intros z Hz. rewrite W in Hz. apply upd_in in Hz.
      destruct Hz as [->|Hz]; [destruct y; try exact I; destruct A|auto].
  - exact (conj G1 (conj F1 (conj Q1 U1))).
  - exists s2. split; [eapply reach_trans; eassumption|]. auto.
Qed.

(** the output queue can be emptied *)
Lemma drain_out q : forall s, outq s = q -> Good s -> main s <> PEnd -> (forall w, In w (writers s) -> atop w) ->
  exists s', reach s s' /\ Good s' /\ wframe s s' /\ outq s' = [] /\ forall w, In w (writers s') -> atop w.
Proof.
  induction q as [|b q IH]; intros s Q G M A.
  - exists s. split; [apply reach_refl|]. split; [exact G|]. split; [apply wframe_refl|]. auto.
  - assert (L := g_nw _ _ _ s G). destruct (writers s) as [|x l] eqn:W; [cbn in L; lia|]. assert (E : nth_error (writers s) 0 = Some x) by (rewrite W; reflexivity).
    assert (X : x = WTop).
    { assert (Ax := A x (or_introl eq_refl)). destruct x; try destruct Ax; [reflexivity|].
      destruct (g_wdone _ _ _ s G WDone) as [_ Z]; [rewrite W; left; reflexivity|reflexivity|congruence]. }
    subst x. rewrite <- W in A.
    set (s1 := set_writer 0 WTest s).
    assert (R1 : reach s s1). { apply (reach_one (SStep 0)); [pl|]. cbn [step]. rewrite E. cbn [writer_step]. rewrite Q. cbn [isnil]. rewrite andb_false_r. reflexivity. }
    assert (G1 : Good s1) by (eapply reach_good; eassumption).
    assert (R2 := gate s1 0 G1 M (nth_upd_same _ _ _ _ E)).
    match type of R2 with reach _ ?t => set (s2 := t) in R2 end. assert (G2 : Good s2) by (eapply reach_good; eassumption).
    assert (E2 : nth_error (writers s2) 0 = Some WGet) by (exact (nth_upd_same _ _ _ _ (nth_upd_same _ _ _ _ E))).
    set (s3 := set_writer 0 (WHave b) (set_outq q s2)).
    assert (R3 : reach s2 s3). { apply (reach_one (SStep 0)); [pl|]. cbn [step]. rewrite E2. cbn [writer_step]. unfold s2 at 1. cbn [outq set_writer set_flags s1]. rewrite Q. reflexivity. }
    assert (G3 : Good s3) by (eapply reach_good; eassumption).
    assert (W3 : writers s3 = upd 0 (WHave b) (writers s)) by (change (writers s3) with (upd 0 (WHave b) (upd 0 WGet (upd 0 WTest (writers s)))); rewrite !upd_upd; reflexivity).
    destruct (write_one s3 0 b G3) as (s4 & R4 & F4 & Q4 & W4).
    + intros y Hy. rewrite W3 in Hy. apply upd_in in Hy. destruct Hy as [->|Hy]; [exact I|]. specialize (A y Hy). destruct y; try exact I; destruct A.
    + rewrite W3. eapply nth_upd_same, E.
    + assert (F : wframe s s4) by exact F4.
      destruct (IH s4) as (s5 & R5 & G5 & F5 & Q5 & A5).
      * rewrite Q4. reflexivity.
      * eapply reach_good; eassumption.
      * destruct F as (_ & _ & _ & _ & Z & _). congruence.
      * intros y Hy. rewrite W4, W3, upd_upd in Hy. apply upd_in in Hy. destruct Hy as [->|Hy]; [exact I|auto].
      * exists s5. split; [|split; [exact G5|split; [eapply wframe_trans; eassumption|auto]]].
        eapply reach_trans; [exact R1|]. eapply reach_trans; [exact R2|]. eapply reach_trans; [exact R3|]. eapply reach_trans; eassumption.
Qed.

(** ** the tasks *)
Lemma run_jobs n : forall s, List.length (todo s) = n -> Good s -> should_wait s = true -> running s = [] ->
  exists s', reach s s' /\ todo s' = [] /\ running s' = [] /\ main s' = main s.
Proof.
  induction n as [|n IH]; intros s L G W R.
  - exists s. split; [apply reach_refl|]. destruct (todo s); [auto|discriminate].
  - destruct (todo s) as [|j l] eqn:T; [discriminate|].
    set (s1 := set_jobs l [j] s).
    assert (R1 : reach s s1). { apply (reach_one (WStart 0)); [pl|]. cbn [step]. rewrite T. cbn [nth_error]. rewrite W, R. cbn [List.length].
      replace (Nat.ltb 0 (n_worker p)) with true by (symmetry; apply Nat.ltb_lt; lia). cbn [andb del app]. reflexivity. }
    set (s2 := set_queue (queue s ++ worker_put (what p j)) (set_jobs l [] s)).
    assert (R2 : reach s1 s2). { apply (reach_one (WFinish 0)); [pl|]. reflexivity. }
    destruct (IH s2) as (s3 & R3 & T3 & Rn3 & M3); [cbn in L; cbn; lia|eapply reach_good; [|exact R2]; eapply reach_good; eassumption|exact W|reflexivity|].
    exists s3. split; [eapply reach_trans; [exact R1|]; eapply reach_trans; eassumption|auto].
Qed.
Lemma finish_running n : forall s, List.length (running s) = n ->
  exists s', reach s s' /\ running s' = [] /\ todo s' = todo s /\ main s' = main s /\ should_wait s' = should_wait s.
Proof.
  induction n as [|n IH]; intros s L.
  - exists s. split; [apply reach_refl|]. destruct (running s); [auto|discriminate].
  - destruct (running s) as [|j l] eqn:R; [discriminate|].
    set (s1 := set_queue (queue s ++ worker_put (what p j)) (set_jobs (todo s) l s)).
    assert (R1 : reach s s1). { apply (reach_one (WFinish 0)); [pl|]. cbn [step]. rewrite R. reflexivity. }
    destruct (IH s1) as (s2 & R2 & A & B & C & D); [cbn in L; cbn; lia|]. exists s2. split; [eapply reach_trans; eassumption|auto].
Qed.

(** ** the combiners *)
Definition cframe (s s' : state) : Prop :=
  main s' = main s /\ should_stop s' = should_stop s /\ stop_ s' = stop_ s.
Lemma cframe_trans a b c : cframe a b -> cframe b c -> cframe a c.
Proof. unfold cframe. intuition congruence. Qed.
Definition rest (x : @comb Row) : Prop := c_pc x = CTop \/ cleaving x.

Lemma get_top s c x : Good s -> nth_error (combs s) c = Some x -> c_pc x = CGet ->
  exists s', reach s s' /\ cframe s s' /\ queue s' = queue s /\ exists y, c_pc y = CTop /\ combs s' = upd c y (combs s).
Proof.
  intros G E Epc. exists (set_comb c (flush x) s). split.
  - destruct (Nat.ltb (c_n x) (chunk p)) eqn:B.
    + apply (reach_one (CTimeout c)); [pl|]. cbn [step]. rewrite E, Epc, B. reflexivity.
    + apply (reach_one (CStep c)); [pl|]. cbn [step]. rewrite E. unfold comb_step. rewrite Epc, B. reflexivity.
  - split; [repeat split|]. split; [reflexivity|]. exists (flush x). split; reflexivity.
Qed.
Lemma have_top s c x m : Good s -> nth_error (combs s) c = Some x -> c_pc x = CHave m ->
  exists s', reach s s' /\ cframe s s' /\ queue s' = queue s /\ exists y, c_pc y = CTop /\ combs s' = upd c y (combs s).
Proof.
  intros G E Epc. assert (O := g_combs _ _ _ s G x (nth_in _ _ _ E)). destruct O as (_ & _ & O). rewrite Epc in O.
  assert (Z : exists s1 y1, reach s s1 /\ cframe s s1 /\ queue s1 = queue s /\ c_pc y1 = CGet /\ combs s1 = upd c y1 (combs s)).
  { destruct m as [|r|]; [| |destruct O].
    - eexists. exists (mkcomb CGet (c_res x) (c_n x) (c_thr x)). split.
      + apply (reach_one (CStep c)); [pl|]. cbn [step]. rewrite E. unfold comb_step. rewrite Epc. reflexivity.
      + repeat split.
    - eexists. exists (mkcomb CGet (collect (c_res x) r) (S (c_n x)) (c_thr x)). split.
      + apply (reach_one (CStep c)); [pl|]. cbn [step]. rewrite E. unfold comb_step. rewrite Epc. reflexivity.
      + repeat split. }
  destruct Z as (s1 & y1 & R1 & F1 & Q1 & P1 & C1). assert (E1 : nth_error (combs s1) c = Some y1) by (rewrite C1; eapply nth_upd_same, E).
  destruct (get_top s1 c y1) as (s2 & R2 & F2 & Q2 & y & Py & C2); [eapply reach_good; eassumption|exact E1|exact P1|].
  exists s2. split; [eapply reach_trans; eassumption|]. split; [eapply cframe_trans; eassumption|]. split; [congruence|].
  exists y. split; [exact Py|]. rewrite C2, C1. apply upd_upd.
Qed.
Lemma test_get s c x : Good s -> main s <> PEnd -> nth_error (combs s) c = Some x -> c_pc x = CTest ->
  exists s' y, reach s s' /\ cframe s s' /\ queue s' = queue s /\ c_pc y = CGet /\ c_n y = 0 /\ combs s' = upd c y (combs s).
Proof.
  intros G M E Epc. exists (set_comb c (mkcomb CGet [] 0 (c_thr x)) s), (mkcomb CGet [] 0 (c_thr x)). split.
  - apply (reach_one (CStep c)); [pl|]. cbn [step]. rewrite E. unfold comb_step. rewrite Epc, (good_nostop s G M). reflexivity.
  - repeat split.
Qed.
Lemma to_ctop s c x : Good s -> main s <> PEnd -> nth_error (combs s) c = Some x ->
  exists s' y, reach s s' /\ (cframe s s' /\ queue s' = queue s) /\ rest y /\ combs s' = upd c y (combs s).
Proof.
  intros G M E. destruct (c_pc x) as [| | |m| |] eqn:Epc.
  - exists s, x. split; [apply reach_refl|]. split; [repeat split|]. split; [left; exact Epc|]. symmetry. apply upd_same, E.
  - destruct (test_get s c x G M E Epc) as (s1 & y1 & R1 & F1 & Q1 & P1 & _ & C1).
    assert (E1 : nth_error (combs s1) c = Some y1) by (rewrite C1; eapply nth_upd_same, E).
    destruct (get_top s1 c y1) as (s2 & R2 & F2 & Q2 & y & Py & C2); [eapply reach_good; eassumption|exact E1|exact P1|].
    exists s2, y. split; [eapply reach_trans; eassumption|]. split; [split; [eapply cframe_trans; eassumption|congruence]|]. split; [left; exact Py|].
    rewrite C2, C1. apply upd_upd.
  - destruct (get_top s c x G E Epc) as (s2 & R2 & F2 & Q2 & y & Py & C2). exists s2, y. repeat (split; [assumption|]). split; [split; assumption|]. split; [left; exact Py|exact C2].
  - destruct (have_top s c x m G E Epc) as (s2 & R2 & F2 & Q2 & y & Py & C2). exists s2, y. repeat (split; [assumption|]). split; [split; assumption|]. split; [left; exact Py|exact C2].
  - exists s, x. split; [apply reach_refl|]. split; [repeat split|]. split; [right; left; exact Epc|]. symmetry. apply upd_same, E.
  - exists s, x. split; [apply reach_refl|]. split; [repeat split|]. split; [right; right; exact Epc|]. symmetry. apply upd_same, E.
Qed.
Lemma all_ctop s : Good s -> main s <> PEnd ->
  exists s', reach s s' /\ (Good s' /\ cframe s s' /\ queue s' = queue s) /\ forall x, In x (combs s') -> rest x.
Proof.
  intros G M. apply (sweep combs (fun s' => Good s' /\ cframe s s' /\ queue s' = queue s) rest).
  - intros t i x (Gt & Ft & Qt) E. destruct (to_ctop t i x Gt) as (t' & y & R & (F & Q) & A & C); [destruct Ft; congruence|exact E|].
    exists t', y. split; [exact R|]. split; [|split; [exact A|exact C]]. split; [eapply reach_good; eassumption|].
    split; [eapply cframe_trans; eassumption|congruence].
  - split; [exact G|]. repeat split.
Qed.
Lemma drain_queue q : forall s, queue s = q -> Good s -> main s <> PEnd -> (forall x, In x (combs s) -> rest x) ->
  exists s', reach s s' /\ Good s' /\ cframe s s' /\ queue s' = [] /\ forall x, In x (combs s') -> rest x.
Proof.
  induction q as [|m q IH]; intros s Q G M A.
  - exists s. split; [apply reach_refl|]. split; [exact G|]. split; [repeat split|]. auto.
  - assert (L := g_nc _ _ _ s G). destruct (combs s) as [|x l] eqn:W; [cbn in L; lia|].
    assert (E : nth_error (combs s) 0 = Some x) by (rewrite W; reflexivity).
    assert (X : c_pc x = CTop).
    { destruct (A x (or_introl eq_refl)) as [Z|Z]; [exact Z|]. destruct (g_leave _ _ _ s G x) as [_ Z2]; [rewrite W; left; reflexivity|exact Z|congruence]. }
    rewrite <- W in A. set (y0 := mkcomb CTest (c_res x) (c_n x) (c_thr x)). set (s1 := set_comb 0 y0 s).
    assert (R1 : reach s s1). { apply (reach_one (CStep 0)); [pl|]. cbn [step]. rewrite E. unfold comb_step. rewrite X, Q. cbn [isnil]. rewrite andb_false_r. reflexivity. }
    assert (G1 : Good s1) by (eapply reach_good; eassumption).
    assert (E1 : nth_error (combs s1) 0 = Some y0) by (exact (nth_upd_same _ _ _ _ E)).
    destruct (test_get s1 0 y0 G1 M E1 eq_refl) as (s2 & y2 & R2 & F2 & Q2 & P2 & N2 & C2).
    assert (G2 : Good s2) by (eapply reach_good; eassumption).
    assert (E2 : nth_error (combs s2) 0 = Some y2) by (rewrite C2; eapply nth_upd_same, E1).
    set (y3 := mkcomb (CHave m) (c_res y2) (c_n y2) (c_thr y2)). set (s3 := set_comb 0 y3 (set_queue q s2)).
    assert (R3 : reach s2 s3). { apply (reach_one (CStep 0)); [pl|]. cbn [step]. rewrite E2. unfold comb_step. rewrite P2, N2.
      replace (Nat.ltb 0 (chunk p)) with true by (symmetry; apply Nat.ltb_lt; lia). rewrite Q2. unfold s1. cbn [queue set_comb]. rewrite Q. unfold s3, y3. rewrite N2. reflexivity. }
    assert (G3 : Good s3) by (eapply reach_good; eassumption).
    assert (C3 : combs s3 = upd 0 y3 (combs s)) by (change (combs s3) with (upd 0 y3 (combs s2)); rewrite C2; change (combs s1) with (upd 0 y0 (combs s)); rewrite !upd_upd; reflexivity).
    destruct (have_top s3 0 y3 m G3) as (s4 & R4 & F4 & Q4 & y4 & P4 & C4); [rewrite C3; eapply nth_upd_same, E|reflexivity|].
    assert (F : cframe s s4). { eapply cframe_trans; [|exact F4]. exact F2. }
    destruct (IH s4) as (s5 & R5 & G5 & F5 & Q5 & A5).
    + rewrite Q4. reflexivity.
    + eapply reach_good; eassumption.
    + destruct F as (Z & _). congruence.
    + intros z Hz. rewrite C4, C3, upd_upd in Hz. apply upd_in in Hz. destruct Hz as [->|Hz]; [left; exact P4|auto].
    + exists s5. split; [|split; [exact G5|split; [eapply cframe_trans; eassumption|auto]]].
      eapply reach_trans; [exact R1|]. eapply reach_trans; [exact R2|]. eapply reach_trans; [exact R3|]. eapply reach_trans; eassumption.
Qed.

(** a combiner at rest can leave once [should_stop] is set *)
Lemma join_threads n : forall s c x, List.length (c_thr x) = n -> Good s -> nth_error (combs s) c = Some x -> c_pc x = CJoin ->
  exists s' y, reach s s' /\ (cframe s s' /\ queue s' = queue s) /\ cdone y /\ combs s' = upd c y (combs s).
Proof.
  induction n as [|n IH]; intros s c x L G E Epc.
  - exists (set_comb c (mkcomb CDone (c_res x) (c_n x) []) s), (mkcomb CDone (c_res x) (c_n x) []). split; [|repeat split].
    apply (reach_one (CStep c)); [pl|]. cbn [step]. rewrite E. unfold comb_step. rewrite Epc. destruct (c_thr x); [reflexivity|discriminate].
  - destruct (c_thr x) as [|rs l] eqn:T; [discriminate|]. set (y := mkcomb (c_pc x) (c_res x) (c_n x) l).
    assert (Z : exists s1, reach s s1 /\ cframe s s1 /\ queue s1 = queue s /\ combs s1 = upd c y (combs s)).
    { destruct (combine_results rs) as [b|] eqn:B.
      - exists (set_outq (outq s ++ [b]) (set_comb c y s)). split; [|repeat split]. apply (reach_one (CThread c 0)); [pl|].
        cbn [step]. rewrite E, T. cbn [nth_error]. rewrite B. reflexivity.
      - exists (set_comb c y s). split; [|repeat split]. apply (reach_one (CThread c 0)); [pl|].
        cbn [step]. rewrite E, T. cbn [nth_error]. rewrite B. reflexivity. }
    destruct Z as (s1 & R1 & F1 & Q1 & C1).
    destruct (IH s1 c y) as (s2 & y2 & R2 & (F2 & Q2) & D2 & C2); [cbn in *; lia|eapply reach_good; eassumption|rewrite C1; eapply nth_upd_same, E|exact Epc|].
    exists s2, y2. split; [eapply reach_trans; eassumption|]. split; [split; [eapply cframe_trans; eassumption|congruence]|]. split; [exact D2|].
    rewrite C2, C1. apply upd_upd.
Qed.
Lemma leave s c x : Good s -> should_stop s = true -> queue s = [] -> nth_error (combs s) c = Some x -> rest x ->
  exists s' y, reach s s' /\ (cframe s s' /\ queue s' = queue s) /\ cdone y /\ combs s' = upd c y (combs s).
Proof.
  intros G S Q E [X|[X|X]].
  - set (y := mkcomb CJoin (c_res x) (c_n x) (c_thr x)). set (s1 := set_comb c y s).
    assert (R1 : reach s s1). { apply (reach_one (CStep c)); [pl|]. cbn [step]. rewrite E. unfold comb_step. rewrite X, S, Q. reflexivity. }
    destruct (join_threads _ s1 c y eq_refl) as (s2 & y2 & R2 & F2 & D2 & C2); [eapply reach_good; eassumption|cbn; eapply nth_upd_same, E|reflexivity|].
    exists s2, y2. split; [eapply reach_trans; eassumption|]. split; [exact F2|]. split; [exact D2|]. rewrite C2. cbn. apply upd_upd.
  - exact (join_threads _ s c x eq_refl G E X).
  - exists s, x. split; [apply reach_refl|]. split; [repeat split|]. split; [exact X|]. symmetry. apply upd_same, E.
Qed.

(** ** the three phases *)
Lemma from_run s : Good s -> main s = PRun -> exists s', reach s s' /\ main s' = PJoinC /\ should_stop s' = true.
Proof.
  intros G M.
  destruct (all_top s G) as (s1 & R1 & G1 & F1 & Q1 & A1); [congruence|].
  assert (M1 : main s1 = PRun) by (destruct F1 as (_ & _ & _ & _ & Z & _); congruence).
  destruct (drain_out _ s1 eq_refl G1) as (s2 & R2 & G2 & F2 & Q2 & A2); [congruence|exact A1|].
  assert (M2 : main s2 = PRun) by (destruct F2 as (_ & _ & _ & _ & Z & _); congruence).
  assert (L := g_nw _ _ _ s2 G2). destruct (writers s2) as [|x l] eqn:W; [cbn in L; lia|].
  assert (E : nth_error (writers s2) 0 = Some x) by (rewrite W; reflexivity).
  assert (X : x = WTop).
  { assert (Ax := A2 x (or_introl eq_refl)). destruct x; try destruct Ax; [reflexivity|].
    destruct (g_wdone _ _ _ s2 G2 WDone) as [[Z|Z] _]; [rewrite W; left; reflexivity|reflexivity| |]; congruence. }
  subst x. set (s3 := set_writer 0 WTest s2).
  assert (Y : ready s2 = false). { destruct (ready s2) eqn:Y; [|reflexivity]. destruct (g_ready _ _ _ s2 G2 Y); congruence. }
  assert (R3 : reach s2 s3). { apply (reach_one (SStep 0)); [pl|]. cbn [step]. rewrite E. cbn [writer_step]. rewrite Y. reflexivity. }
  assert (G3 : Good s3) by (eapply reach_good; eassumption).
  assert (R4 : reach s3 (set_writer 0 WGet (set_flags (Nat.ltb (List.length (outq s3)) (cache p)) (should_stop s3) (stop_ s3) (ready s3) s3))).
  { apply gate; [exact G3|cbn; congruence|exact (nth_upd_same _ _ _ _ E)]. }
  match type of R4 with reach _ ?t => set (s4 := t) in R4 end. assert (G4 : Good s4) by (eapply reach_good; eassumption).
  assert (W4 : should_wait s4 = true). { cbn. rewrite Q2. apply Nat.ltb_lt. cbn. lia. }
  destruct (finish_running _ s4 eq_refl) as (s5 & R5 & N5 & T5 & M5 & W5).
  destruct (run_jobs _ s5 eq_refl) as (s6 & R6 & T6 & N6 & M6); [eapply reach_good; eassumption|congruence|exact N5|].
  assert (MM : main s6 = PRun) by (rewrite M6, M5; exact M2).
  exists (set_main PJoinC (set_flags (should_wait s6) true (stop_ s6) (ready s6) s6)). split; [|split; [reflexivity|]].
  - eapply reach_trans; [exact R1|]. eapply reach_trans; [exact R2|]. eapply reach_trans; [exact R3|]. eapply reach_trans; [exact R4|].
    eapply reach_trans; [exact R5|]. eapply reach_trans; [exact R6|]. apply (reach_one Main); [pl|]. cbn [step]. rewrite MM, T6, N6. reflexivity.
  - reflexivity.
Qed.
Lemma from_joinc s : Good s -> main s = PJoinC -> should_stop s = true -> exists s', reach s s' /\ main s' = PJoinW /\ ready s' = true.
Proof.
  intros G M S. destruct (all_ctop s G) as (s1 & R1 & (G1 & F1 & Q1) & A1); [congruence|].
  assert (M1 : main s1 = PJoinC) by (destruct F1; congruence).
  destruct (drain_queue _ s1 eq_refl G1) as (s2 & R2 & G2 & F2 & Q2 & A2); [congruence|exact A1|].
  assert (F : cframe s s2) by (eapply cframe_trans; eassumption).
  destruct (sweep combs (fun t => Good t /\ cframe s t /\ queue t = [] /\ forall x, In x (combs t) -> rest x) cdone) with (s := s2) as (s3 & R3 & (G3 & F3 & Q3 & _) & D3).
  - intros t i x (Gt & Ft & Qt & At) E. destruct (leave t i x) as (t' & y & R & (F' & Q') & D & C'); try assumption.
    + destruct Ft as (_ & Z & _). congruence.
    + apply At. eapply nth_in, E.
    + exists t', y. split; [exact R|]. split; [|split; [exact D|exact C']]. split; [eapply reach_good; eassumption|].
      split; [eapply cframe_trans; eassumption|]. split; [congruence|]. intros z Hz. rewrite C' in Hz. apply upd_in in Hz.
      destruct Hz as [->|Hz]; [right; right; exact D|auto].
  - auto.
  - exists (set_main PJoinW (set_flags (should_wait s3) (should_stop s3) (stop_ s3) true s3)). split; [|split; [reflexivity|reflexivity]].
    eapply reach_trans; [exact R1|]. eapply reach_trans; [exact R2|]. eapply reach_trans; [exact R3|]. apply (reach_one Main); [pl|].
    cbn [step]. destruct F3 as (Z & _). rewrite Z, M.
    replace (forallb _ (combs s3)) with true; [reflexivity|]. symmetry. apply forallb_forall. intros x Hx. rewrite (D3 x Hx). reflexivity.
Qed.
Lemma from_joinw s : Good s -> main s = PJoinW -> ready s = true -> exists s', reach s s' /\ main s' = PEnd.
Proof.
  intros G M Y. destruct (all_top s G) as (s1 & R1 & G1 & F1 & Q1 & A1); [congruence|].
  assert (M1 : main s1 = PJoinW) by (destruct F1 as (_ & _ & _ & _ & Z & _); congruence).
  destruct (drain_out _ s1 eq_refl G1) as (s2 & R2 & G2 & F2 & Q2 & A2); [congruence|exact A1|].
  assert (F : wframe s s2) by (eapply wframe_trans; eassumption).
  destruct (sweep writers (fun t => Good t /\ wframe s t /\ outq t = [] /\ forall x, In x (writers t) -> atop x) (fun w => w = WDone)) with (s := s2) as (s3 & R3 & (G3 & F3 & Q3 & _) & D3).
  - intros t i x (Gt & Ft & Qt & At) E. assert (Ax := At x (nth_in _ _ _ E)). destruct x; try destruct Ax.
    + exists (set_writer i WDone t), WDone. assert (R : reach t (set_writer i WDone t)).
      { apply (reach_one (SStep i)); [pl|]. cbn [step]. rewrite E. cbn [writer_step]. destruct Ft as (_ & _ & _ & _ & _ & _ & Z & _). rewrite Z, Y, Qt. reflexivity. }
      split; [exact R|]. split; [|split; reflexivity]. split; [eapply reach_good; eassumption|]. split; [exact Ft|]. split; [exact Qt|].
      cbn. intros z Hz. apply upd_in in Hz. destruct Hz as [->|Hz]; [exact I|auto].
    + exists t, WDone. split; [apply reach_refl|]. split; [auto|]. split; [reflexivity|]. symmetry. apply upd_same, E.
  - auto.
  - exists (set_main PEnd (set_flags (should_wait s3) (should_stop s3) true (ready s3) s3)). split; [|reflexivity].
    eapply reach_trans; [exact R1|]. eapply reach_trans; [exact R2|]. eapply reach_trans; [exact R3|]. apply (reach_one Main); [pl|].
    cbn [step]. destruct F3 as (_ & _ & _ & _ & Z & _). rewrite Z, M.
    replace (forallb _ (writers s3)) with true; [reflexivity|]. symmetry. apply forallb_forall. intros x Hx. rewrite (D3 x Hx). reflexivity.
Qed.

(** flags of the phases (reachable states) *)
Definition flags (s : state) : Prop :=
  (main s <> PRun -> should_stop s = true) /\ (main s = PJoinW -> ready s = true).
Lemma flags_step e s s' : plain e -> flags s -> step p e s = Some s' -> flags s'.
Proof.
  intros [P1 P2] [F1 F2] H. destruct e; cbn [step] in H.
  - destruct (nth_error (todo s) i); [|discriminate]. destruct (should_wait s && _); inversion H; subst; split; assumption.
  - destruct (nth_error (running s) i); inversion H; subst; split; assumption.
  - destruct (nth_error (combs s) c) as [x|]; [|discriminate]. unfold comb_step in H. destruct (c_pc x) as [| | |[]| |].
    + destruct (should_stop s && isnil (queue s)); inversion H; subst; split; assumption.
    + destruct (stop_ s); inversion H; subst; split; assumption.
    + destruct (Nat.ltb (c_n x) (chunk p)); [destruct (queue s)|]; inversion H; subst; split; assumption.
    + inversion H; subst; split; assumption.
    + inversion H; subst; split; assumption.
    + inversion H; subst; split; assumption.
    + destruct (isnil (c_thr x)); inversion H; subst; split; assumption.
    + discriminate.
  - destruct (nth_error (combs s) c) as [x|]; [|discriminate]. destruct (c_pc x); try discriminate. destruct (Nat.ltb _ _); inversion H; subst; split; assumption.
  - destruct (nth_error (combs s) c) as [x|]; [|discriminate]. destruct (nth_error (c_thr x) i) as [rs|]; [|discriminate].
    destruct (combine_results rs); inversion H; subst; split; assumption.
  - destruct (nth_error (writers s) w) as [x|]; [|discriminate]. unfold writer_step in H.
    destruct x as [| | | |b|[|[k [rows|]] b]|]; try discriminate.
    + destruct (ready s && isnil (outq s)); inversion H; subst; split; assumption.
    + destruct (stop_ s); inversion H; subst; split; assumption.
    + inversion H; subst; split; assumption.
    + destruct (outq s); inversion H; subst; split; assumption.
    + destruct (locked s); inversion H; subst; split; assumption.
    + inversion H; subst; split; assumption.
    + inversion H; subst; split; assumption.
    + inversion H; subst; split; assumption.
  - destruct (nth_error (writers s) w) as [[]|]; inversion H; subst; split; assumption.
  - destruct (nth_error (writers s) w) as [[]|]; inversion H; subst; split; assumption.
  - destruct (main s) eqn:M.
    + destruct (isnil (todo s) && isnil (running s)); inversion H; subst. split; [reflexivity|discriminate].
    + destruct (forallb _ (combs s)); inversion H; subst. split; [|reflexivity]. cbn. intros _. apply F1. discriminate.
    + destruct (forallb _ (writers s)); inversion H; subst. split; [|discriminate]. cbn. intros _. apply F1. discriminate.
    + discriminate.
  - congruence.
Qed.
Lemma flags_run es : forall s s', undisturbed es -> flags s -> run p es s = Some s' -> flags s'.
Proof.
  induction es as [|e es IH]; intros s s' U F H; cbn [run] in H; [inversion H; subst; exact F|].
  destruct (plain_cons _ _ U) as [P U']. destruct (step p e s) as [s1|] eqn:E; [|discriminate].
  apply (IH s1 s' U'); [eapply flags_step; eassumption|exact H].
Qed.

Lemma can_finish s : Good s -> flags s -> exists s', reach s s' /\ main s' = PEnd.
Proof.
  intros G [F1 F2].
  assert (W : forall t, Good t -> main t = PJoinW -> ready t = true -> reach s t -> exists s', reach s s' /\ main s' = PEnd).
  { intros t Gt Mt Yt Rt. destruct (from_joinw t Gt Mt Yt) as (t' & R & M). exists t'. split; [eapply reach_trans; eassumption|exact M]. }
  assert (C : forall t, Good t -> main t = PJoinC -> should_stop t = true -> reach s t -> exists s', reach s s' /\ main s' = PEnd).
  { intros t Gt Mt St Rt. destruct (from_joinc t Gt Mt St) as (t' & R & M & Y).
    apply (W t'); try assumption; [eapply reach_good; eassumption|eapply reach_trans; eassumption]. }
  destruct (main s) eqn:M.
  - destruct (from_run s G M) as (t & R & Mt & St). apply (C t); try assumption. eapply reach_good; eassumption.
  - apply (C s); try assumption; [|apply reach_refl]. apply F1. discriminate.
  - apply (W s); try assumption; [|apply reach_refl]. apply F2. reflexivity.
  - exists s. split; [apply reach_refl|exact M].
Qed.
End P3.
