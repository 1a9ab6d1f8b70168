(** C51: when the processing can still end after a failed write or a signal. *)
From Coq Require Import List Arith Bool String Lia.
From Verif Require Import Base Pip_Model Pip_Spec Pip3_Proofs Pip4_Proofs Pip_Props Exa10_Spec Exa10_Proofs.
Import ListNotations.

(** After a failed write (or a signal), with any tasks and batches: the processing can end, without any further
    disturbance, if every task was started, or the gate for new tasks is open, or a writer that has not yet noticed
    the stop may open it; otherwise it never ends, whatever happens. *)
Theorem C51_exactly (Job Row : Type) (p : @params Job Row) (jobs : list Job) (es : list event) (s : state) :
  executes p jobs es s -> stop_ s = true -> main s = PRun -> 1 <= n_worker p -> 1 <= cache p ->
  (todo s = [] \/ should_wait s = true \/ gate_may_open p s -> exists es' s', undisturbed es' /\ run p es' s = Some s' /\ main s' = PEnd) /\
  (~ (todo s = [] \/ should_wait s = true \/ gate_may_open p s) -> stuck p s).
Proof.
  intros X S M PW CA. split.
  - assert (A : forall t : state, stop_ t = true -> todo t = [] -> reach p s t -> exists es' s', undisturbed es' /\ run p es' s = Some s' /\ main s' = PEnd).
    { intros t St Tt R. destruct (stopped_can_finish p t St Tt) as (s' & R' & E). destruct (reach_trans p _ _ _ R R') as (es' & U & Q). exists es', s'. auto. }
    assert (B : forall t : state, stop_ t = true -> should_wait t = true -> reach p s t -> exists es' s', undisturbed es' /\ run p es' s = Some s' /\ main s' = PEnd).
    { intros t St Wt R. destruct (open_gate_starts p PW _ t eq_refl Wt) as (t' & R' & T' & S'). apply (A t'); [congruence|exact T'|]. eapply reach_trans; eassumption. }
    intros [T|[W|G]].
    + apply (A s S T). apply reach_refl.
    + apply (B s S W). apply reach_refl.
    + destruct (gate_opens p CA _ s eq_refl S G) as (t & R & _ & St & Wt). now apply (B t).
  - intros N es' s' R E.
    assert (D : Doomed p s).
    { split; [exact M|]. split; [tauto|]. split; [destruct (should_wait s); tauto|]. split; [exact S|].
      destruct (Nat.eq_dec (how_many at_gate s) 0) as [Z|Z]; [now left|]. right.
      destruct (Nat.le_gt_cases (cache p + how_many at_get s + (how_many at_gate s - 1)) (List.length (outq s))) as [L|L]; [exact L|].
      exfalso. apply N. right; right. split; lia. }
    destruct (doomed_run p es' s s' D R) as (M' & _). congruence.
Qed.
Print Assumptions C51_exactly.
(** one task is left, the write of the first one failed, the gate is closed: the other writer is in front of the gate *)
Example C51_exactly_example : let p := mkparams 1 1 2 1 1 ex_what in exists s,
  executes p [0; 1] ([SStep 1; SStep 1] ++ ex_start ++ ex_combine ++ [SFail 0])%list s /\
  stop_ s = true /\ main s = PRun /\ todo s = [1] /\ should_wait s = false /\ gate_may_open p s.
Proof. cbv zeta. eexists. split; [vm_compute; reflexivity|]. split; [reflexivity|]. split; [reflexivity|]. split; [reflexivity|]. split; [reflexivity|]. vm_compute. lia. Qed.
