(** Once [_stop] is set and every task has been started, the pipeline can
    still finish, whatever was lost. *)
From Coq Require Import List Arith Bool String Ascii Lia.
From Verif Require Import Base Base_Proofs Pip_Model Pip_Spec Pip_Proofs Pip3_Proofs.
Import ListNotations.
Local Open Scope list_scope.

Section P4.
Context {Job Row : Type}.
Notation state := (@state Job Row).
Notation params := (@params Job Row).
Variable p : params.
Notation reach := (reach p).
Ltac pl := split; [discriminate|intros ?; discriminate].

Definition halting (s s' : state) : Prop :=
  stop_ s' = true /\ main s' = main s /\ todo s' = todo s.

Lemma finish_tasks n : forall s : state, List.length (running s) = n ->
  exists s', reach s s' /\ running s' = [] /\ todo s' = todo s /\ main s' = main s /\ stop_ s' = stop_ s.
Proof.
  induction n as [|n IH]; intros s L.
  - exists s. split; [apply reach_refl|]. destruct (running s); [auto|discriminate].
  - destruct (running s) as [|j l] eqn:R; [discriminate|].
    set (s1 := set_queue (queue s ++ worker_put (what p j)) (set_jobs (todo s) l s)).
    assert (R1 : reach s s1). { apply (reach_one p (WFinish 0)); [pl|]. cbn [step]. rewrite R. reflexivity. }
    destruct (IH s1) as (s2 & R2 & A & B & C & D); [cbn in L; cbn; lia|]. exists s2. split; [eapply reach_trans; eassumption|auto].
Qed.

(** combiners *)
Definition cf (s s' : state) : Prop := stop_ s' = stop_ s /\ main s' = main s.
Lemma cf_trans a b c : cf a b -> cf b c -> cf a c.
Proof. unfold cf. intuition congruence. Qed.
Definition goes (s : state) (c : nat) : Prop := exists s' y, reach s s' /\ cf s s' /\ cdone y /\ combs s' = upd c y (combs s).

Lemma via s s1 c y : reach s s1 -> cf s s1 -> combs s1 = upd c y (combs s) -> goes s1 c -> goes s c.
Proof.
  intros R F C (s2 & z & R2 & F2 & D & C2). exists s2, z. split; [eapply reach_trans; eassumption|]. split; [eapply cf_trans; eassumption|].
  split; [exact D|]. rewrite C2, C. apply upd_upd.
Qed.
Lemma goes_join n : forall (s : state) c x, List.length (c_thr x) = n -> nth_error (combs s) c = Some x -> c_pc x = CJoin -> goes s c.
Proof.
  induction n as [|n IH]; intros s c x L E Epc.
  - exists (set_comb c (mkcomb CDone (c_res x) (c_n x) []) s), (mkcomb CDone (c_res x) (c_n x) []). split; [|repeat split].
    apply (reach_one p (CStep c)); [pl|]. cbn [step]. rewrite E. unfold comb_step. rewrite Epc. destruct (c_thr x); [reflexivity|discriminate].
  - destruct (c_thr x) as [|rs l] eqn:T; [discriminate|]. set (y := mkcomb (c_pc x) (c_res x) (c_n x) l).
    assert (Z : exists s1, reach s s1 /\ cf s s1 /\ combs s1 = upd c y (combs s)).
    { destruct (combine_results rs) as [b|] eqn:B.
      - exists (set_outq (outq s ++ [b]) (set_comb c y s)). split; [|repeat split]. apply (reach_one p (CThread c 0)); [pl|].
        cbn [step]. rewrite E, T. cbn [nth_error]. rewrite B. reflexivity.
      - exists (set_comb c y s). split; [|repeat split]. apply (reach_one p (CThread c 0)); [pl|].
        cbn [step]. rewrite E, T. cbn [nth_error]. rewrite B. reflexivity. }
    destruct Z as (s1 & R1 & F1 & C1). apply (via s s1 c y R1 F1 C1). apply (IH s1 c y); [cbn in *; lia|rewrite C1; eapply nth_upd_same, E|exact Epc].
Qed.
Lemma goes_test s c x : stop_ s = true -> nth_error (combs s) c = Some x -> c_pc x = CTest -> goes s c.
Proof.
  intros S E Epc. set (y := mkcomb CJoin (c_res x) (c_n x) (c_thr x)). apply (via s (set_comb c y s) c y).
  - apply (reach_one p (CStep c)); [pl|]. cbn [step]. rewrite E. unfold comb_step. rewrite Epc, S. reflexivity.
  - repeat split.
  - reflexivity.
  - apply (goes_join _ (set_comb c y s) c y eq_refl (nth_upd_same _ _ _ _ E) eq_refl).
Qed.
Lemma goes_top s c x : stop_ s = true -> nth_error (combs s) c = Some x -> c_pc x = CTop -> goes s c.
Proof.
  intros S E Epc. destruct (should_stop s && isnil (queue s)) eqn:B.
  - set (y := mkcomb CJoin (c_res x) (c_n x) (c_thr x)). apply (via s (set_comb c y s) c y).
    + apply (reach_one p (CStep c)); [pl|]. cbn [step]. rewrite E. unfold comb_step. rewrite Epc, B. reflexivity.
    + repeat split.
    + reflexivity.
    + apply (goes_join _ (set_comb c y s) c y eq_refl (nth_upd_same _ _ _ _ E) eq_refl).
  - set (y := mkcomb CTest (c_res x) (c_n x) (c_thr x)). apply (via s (set_comb c y s) c y).
    + apply (reach_one p (CStep c)); [pl|]. cbn [step]. rewrite E. unfold comb_step. rewrite Epc, B. reflexivity.
    + repeat split.
    + reflexivity.
    + apply (goes_test (set_comb c y s) c y S (nth_upd_same _ _ _ _ E) eq_refl).
Qed.
Lemma goes_get s c x : stop_ s = true -> nth_error (combs s) c = Some x -> c_pc x = CGet -> goes s c.
Proof.
  intros S E Epc. apply (via s (set_comb c (flush x) s) c (flush x)).
  - destruct (Nat.ltb (c_n x) (chunk p)) eqn:B.
    + apply (reach_one p (CTimeout c)); [pl|]. cbn [step]. rewrite E, Epc, B. reflexivity.
    + apply (reach_one p (CStep c)); [pl|]. cbn [step]. rewrite E. unfold comb_step. rewrite Epc, B. reflexivity.
  - repeat split.
  - reflexivity.
  - apply (goes_top (set_comb c (flush x) s) c (flush x) S (nth_upd_same _ _ _ _ E) eq_refl).
Qed.
Lemma comb_goes s c x : stop_ s = true -> nth_error (combs s) c = Some x -> goes s c.
Proof.
  intros S E. destruct (c_pc x) as [| | |m| |] eqn:Epc.
  - eapply goes_top; eassumption.
  - eapply goes_test; eassumption.
  - eapply goes_get; eassumption.
  - destruct m as [|r|].
    + set (y := mkcomb CGet (c_res x) (c_n x) (c_thr x)). apply (via s (set_comb c y (increase_cnt true s)) c y).
      * apply (reach_one p (CStep c)); [pl|]. cbn [step]. rewrite E. unfold comb_step. rewrite Epc. reflexivity.
      * repeat split.
      * reflexivity.
      * apply (goes_get (set_comb c y (increase_cnt true s)) c y S (nth_upd_same _ _ _ _ E) eq_refl).
    + set (y := mkcomb CGet (collect (c_res x) r) (Datatypes.S (c_n x)) (c_thr x)). apply (via s (set_comb c y (increase_cnt false s)) c y).
      * apply (reach_one p (CStep c)); [pl|]. cbn [step]. rewrite E. unfold comb_step. rewrite Epc. reflexivity.
      * repeat split.
      * reflexivity.
      * apply (goes_get (set_comb c y (increase_cnt false s)) c y S (nth_upd_same _ _ _ _ E) eq_refl).
    + set (y := mkcomb CTop [] 0 (c_thr x)). apply (via s (set_comb c y s) c y).
      * apply (reach_one p (CStep c)); [pl|]. cbn [step]. rewrite E. unfold comb_step. rewrite Epc. reflexivity.
      * repeat split.
      * reflexivity.
      * apply (goes_top (set_comb c y s) c y S (nth_upd_same _ _ _ _ E) eq_refl).
  - eapply goes_join; [reflexivity|eassumption|exact Epc].
  - exists s, x. split; [apply reach_refl|]. split; [repeat split|]. split; [exact Epc|]. symmetry. apply upd_same, E.
Qed.

(** writers *)
Definition wf (s s' : state) : Prop := stop_ s' = true /\ main s' = main s.
Lemma wf_trans a b c : wf a b -> wf b c -> wf a c.
Proof. unfold wf. intuition congruence. Qed.
Lemma finish_any b : forall s w, stop_ s = true -> nth_error (writers s) w = Some (WWriting b) ->
  exists s', reach s s' /\ wf s s' /\ writers s' = upd w WTop (writers s).
Proof.
  induction b as [|[k [rows|]] b IH]; intros s w S E.
  - exists (set_writer w WTop s). split; [apply (reach_one p (SStep w)); [pl|cbn [step]; rewrite E; reflexivity]|]. repeat split; exact S.
  - set (s1 := set_writer w (WWriting b) (add_store (map (pair k) rows) s)).
    assert (R : reach s s1) by (apply (reach_one p (SStep w)); [pl|cbn [step]; rewrite E; reflexivity]).
    destruct (IH s1 w) as (s' & R' & F & W); [exact S|exact (nth_upd_same _ _ _ _ E)|].
    exists s'. split; [eapply reach_trans; eassumption|]. split; [exact F|]. rewrite W. apply upd_upd.
  - exists (write_failed w s). split; [apply (reach_one p (SStep w)); [pl|cbn [step]; rewrite E; reflexivity]|]. repeat split.
Qed.
Lemma top_done s w : stop_ s = true -> nth_error (writers s) w = Some WTop ->
  exists s', reach s s' /\ wf s s' /\ writers s' = upd w WDone (writers s).
Proof.
  intros S E. destruct (ready s && isnil (outq s)) eqn:B.
  - exists (set_writer w WDone s). split; [apply (reach_one p (SStep w)); [pl|cbn [step]; rewrite E; cbn [writer_step]; rewrite B; reflexivity]|]. repeat split; exact S.
  - exists (set_writer w WDone (set_writer w WTest s)). split; [|split; [split; [exact S|reflexivity]|apply upd_upd]].
    apply (reach_trans p s (set_writer w WTest s)).
    + apply (reach_one p (SStep w)); [pl|cbn [step]; rewrite E; cbn [writer_step]; rewrite B; reflexivity].
    + apply (reach_one p (SStep w)); [pl|]. cbn [step]. change (writers (set_writer w WTest s)) with (upd w WTest (writers s)).
      rewrite (nth_upd_same _ _ _ _ E). cbn [writer_step]. change (stop_ (set_writer w WTest s)) with (stop_ s). rewrite S. reflexivity.
Qed.
Lemma via_top s s1 w : reach s s1 -> wf s s1 -> (exists y, nth_error (writers s) w = Some y) -> writers s1 = upd w WTop (writers s) ->
  exists s', reach s s' /\ wf s s' /\ writers s' = upd w WDone (writers s).
Proof.
  intros R F [y E] W. destruct (top_done s1 w) as (s2 & R2 & F2 & W2); [apply F|rewrite W; exact (nth_upd_same _ _ _ _ E)|].
  exists s2. split; [eapply reach_trans; eassumption|]. split; [eapply wf_trans; eassumption|]. rewrite W2, W. apply upd_upd.
Qed.
Lemma writer_goes s w x : stop_ s = true -> (forall y, In y (writers s) -> nowrite y) -> nth_error (writers s) w = Some x ->
  exists s', reach s s' /\ wf s s' /\ writers s' = upd w WDone (writers s).
Proof.
  intros S U E. assert (EX : exists y, nth_error (writers s) w = Some y) by (exists x; exact E). destruct x as [| | | |b|b|].
  - apply top_done; assumption.
  - exists (set_writer w WDone s). split; [apply (reach_one p (SStep w)); [pl|cbn [step]; rewrite E; cbn [writer_step]; rewrite S; reflexivity]|]. repeat split; exact S.
  - set (s1 := set_writer w WGet (set_flags (Nat.ltb (List.length (outq s)) (cache p)) (should_stop s) (stop_ s) (ready s) s)).
    apply (via_top s (set_writer w WTop s1) w).
    + apply (reach_trans p s s1); [apply (reach_one p (SStep w)); [pl|cbn [step]; rewrite E; reflexivity]|].
      apply (reach_one p (STimeout w)); [pl|]. cbn [step]. change (writers s1) with (upd w WGet (writers s)). rewrite (nth_upd_same _ _ _ _ E). reflexivity.
    + split; [exact S|reflexivity].
    + exact EX.
    + apply upd_upd.
  - apply (via_top s (set_writer w WTop s) w); [|split; [exact S|reflexivity]|exact EX|reflexivity].
    apply (reach_one p (STimeout w)); [pl|]. cbn [step]. rewrite E. reflexivity.
  - set (s1 := set_writer w (WWriting b) s).
    assert (R : reach s s1) by (apply (reach_one p (SStep w)); [pl|cbn [step]; rewrite E; cbn [writer_step]; rewrite unlocked by exact U; reflexivity]).
    destruct (finish_any b s1 w S (nth_upd_same _ _ _ _ E)) as (s2 & R2 & F2 & W2).
    apply (via_top s s2 w); [eapply reach_trans; eassumption|exact F2|exact EX|rewrite W2; apply upd_upd].
  - destruct (U _ (nth_in _ _ _ E)).
  - exists s. split; [apply reach_refl|]. split; [split; [exact S|reflexivity]|]. symmetry. apply upd_same, E.
Qed.

Lemma stopped_can_finish (s : state) : stop_ s = true -> todo s = [] ->
  exists s', reach s s' /\ main s' = PEnd.
Proof.
  intros S T.
  assert (W : forall t : state, stop_ t = true -> main t = PJoinW -> exists s', reach t s' /\ main s' = PEnd).
  { intros t St Mt.
    destruct (sweep p writers (fun u => stop_ u = true /\ main u = PJoinW) nowrite) with (s := t) as (t1 & R1 & (S1 & M1) & U1).
    - intros u i x (Su & Mu) E. destruct x as [| | | |b|b|].
      6:{ destruct (finish_any b u i Su E) as (u' & R & F & Wu). exists u', WTop. split; [exact R|]. split; [destruct F; split; congruence|]. split; [exact I|exact Wu]. }
      all: match type of E with _ = Some ?x => exists u, x end; (split; [apply reach_refl|]); (split; [auto|]); (split; [exact I|]); symmetry; apply upd_same, E.
    - auto.
    - destruct (sweep p writers (fun u => (stop_ u = true /\ main u = PJoinW) /\ forall y, In y (writers u) -> nowrite y) (fun w => w = WDone)) with (s := t1)
        as (t2 & R2 & ((S2 & M2) & U2) & D2).
      + intros u i x ((Su & Mu) & Uu) E. destruct (writer_goes u i x Su Uu E) as (u' & R & F & Wu). exists u', WDone. split; [exact R|].
        split; [|split; [reflexivity|exact Wu]]. split; [destruct F; split; congruence|]. intros y Hy. rewrite Wu in Hy. apply upd_in in Hy. destruct Hy as [->|Hy]; [exact I|auto].
      + auto.
      + exists (set_main PEnd (set_flags (should_wait t2) (should_stop t2) true (ready t2) t2)). split; [|reflexivity].
        eapply reach_trans; [exact R1|]. eapply reach_trans; [exact R2|]. apply (reach_one p Main); [pl|]. cbn [step]. rewrite M2.
        replace (forallb _ (writers t2)) with true; [reflexivity|]. symmetry. apply forallb_forall. intros x Hx. rewrite (D2 x Hx). reflexivity. }
  assert (C : forall t : state, stop_ t = true -> main t = PJoinC -> exists s', reach t s' /\ main s' = PEnd).
  { intros t St Mt.
    destruct (sweep p combs (fun u => stop_ u = true /\ main u = PJoinC) cdone) with (s := t) as (t1 & R1 & (S1 & M1) & D1).
    - intros u i x (Su & Mu) E. destruct (comb_goes u i x Su E) as (u' & y & R & F & D & Cu). exists u', y. split; [exact R|].
      split; [destruct F; split; congruence|]. split; [exact D|exact Cu].
    - auto.
    - set (t2 := set_main PJoinW (set_flags (should_wait t1) (should_stop t1) (stop_ t1) true t1)).
      destruct (W t2) as (s' & R & M); [exact S1|reflexivity|]. exists s'. split; [|exact M]. eapply reach_trans; [exact R1|].
      eapply reach_trans; [|exact R]. apply (reach_one p Main); [pl|]. cbn [step]. rewrite M1.
      replace (forallb _ (combs t1)) with true; [reflexivity|]. symmetry. apply forallb_forall. intros x Hx. rewrite (D1 x Hx). reflexivity. }
  destruct (main s) eqn:M.
  - destruct (finish_tasks _ s eq_refl) as (s1 & R1 & N1 & T1 & M1 & S1).
    set (s2 := set_main PJoinC (set_flags (should_wait s1) true (stop_ s1) (ready s1) s1)).
    destruct (C s2) as (s' & R & Me); [cbn; congruence|reflexivity|]. exists s'. split; [|exact Me]. eapply reach_trans; [exact R1|].
    eapply reach_trans; [|exact R]. apply (reach_one p Main); [pl|]. cbn [step]. rewrite M1, M, T1, T, N1. reflexivity.
  - apply C; assumption.
  - apply W; assumption.
  - exists s. split; [apply reach_refl|exact M].
Qed.
End P4.
