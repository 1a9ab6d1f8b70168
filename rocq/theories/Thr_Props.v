(** C226: the thread that prints the progress. *)
From Coq Require Import Bool Arith List Lia.
From Verif Require Import Base Thr_Model Thr_Spec Thr_Proofs.
Import ListNotations.
Local Open Scope list_scope.

(** ** while the processing goes on, the thread prints a line with every second of its steps *)
Theorem C226_prints : forall es q, Forall ordinary es ->
  let w := run (started q) es in
  (th w = Waiting \/ th w = Printing) /\ lines w = Nat.div2 (steps es) /\ finished w = false.
Proof.
  intros es q H.
  assert (G : forall es w k, Forall ordinary es -> should_stop w = false -> stopped w = false -> up w = true -> finished w = false ->
    (th w = Waiting /\ k = 2 * lines w \/ th w = Printing /\ k = S (2 * lines w)) ->
    let r := run w es in (th r = Waiting \/ th r = Printing) /\ lines r = Nat.div2 (k + steps es) /\ finished r = false).
  { clear. induction es as [|e es IH]; intros w k F A B C D T.
    - cbn [run fold_left steps]. rewrite Nat.add_0_r. split; [tauto|]. split; [|exact D].
      destruct T as [[_ ->]|[_ ->]]; [now rewrite Nat.div2_double|now rewrite Nat.div2_succ_double].
    - inversion F as [|? ? O F']; subst. cbn [run fold_left]. fold (run (step w e) es). destruct w as [ss st u qu fi t li].
      cbn [should_stop stopped up finished th lines] in A, B, C, D, T. subst.
      destruct O as [->|[->| ->]]; cbn [steps].
      + apply (IH _ k); auto.
      + apply (IH _ k); auto.
      + rewrite Nat.add_succ_r, <- Nat.add_succ_l. apply (IH _ (S k)); auto; destruct T as [[-> ->]|[-> ->]]; try reflexivity.
        * right. split; [reflexivity|]. reflexivity.
        * left. split; [reflexivity|]. cbn [step th up lines]. lia. }
  apply (G es (started q) 0); auto.
Qed.
Print Assumptions C226_prints.

(** ** it ends: after four of its steps since the end of the processing (as long as no results are put into the queue), whatever else happens *)
Theorem C226_ends : forall w es, final w -> ~ In Put es -> 4 <= steps es -> over (run w es).
Proof.
  assert (G : forall es w, final w -> ~ In Put es -> rank w <= steps es -> over (run w es)).
  { induction es as [|e es IH]; intros w F N R.
    - cbn in *. unfold over. unfold rank in R. destruct (th w); auto; destruct (finished w); lia.
    - cbn [run fold_left]. fold (run (step w e) es). assert (Ne : e <> Put) by (intros ->; apply N; now left). destruct (rank_step w e F) as [A B].
      apply IH; [now apply final_step|intros I; apply N; now right|]. destruct e; cbn [steps] in R; try lia. destruct (B eq_refl); lia. }
  intros w es F N R. apply G; auto. unfold rank. destruct (th w); try lia; destruct (finished w); lia.
Qed.
Print Assumptions C226_ends.

(** after the end of the processing at most two more lines are printed *)
Theorem C226_last_lines : forall w es, final w -> ~ In Put es -> lines (run w es) <= lines w + 2.
Proof.
  assert (G : forall es w, final w -> ~ In Put es ->
    lines (run w es) <= lines w + match th w with Ended | Died => 0 | Waiting => if finished w then 0 else 1 | Printing => if finished w then 1 else 2 end).
  { induction es as [|e es IH]; intros w F N; [cbn; lia|].
    cbn [run fold_left]. fold (run (step w e) es). assert (Ne : e <> Put) by (intros ->; apply N; now left).
    specialize (IH (step w e) (final_step w e F Ne) ltac:(intros I; apply N; now right)). eapply Nat.le_trans; [exact IH|]. clear IH.
    pose proof (closing_final w F) as K. destruct w as [ss st u qu fi t li]. cbn [up] in K.
    destruct e; cbn [step th finished up lines]; try congruence; try (destruct u; apply Nat.le_refl); try apply Nat.le_refl.
    destruct t, fi, u; cbn [th finished lines]; try rewrite (K eq_refl); lia. }
  intros w es F N. specialize (G es w F N). destruct (th w); try lia; destruct (finished w); lia.
Qed.
Print Assumptions C226_last_lines.

(** as long as the manager runs the thread does not end by an exception *)
Theorem C226_clean : forall q es, ~ In Shutdown es -> th (run (started q) es) <> Died.
Proof.
  intros q es N. assert (G : forall es w, ~ In Shutdown es -> up w = true -> th w <> Died -> th (run w es) <> Died).
  { clear. induction es as [|e es IH]; intros w N U T; [exact T|]. cbn [run fold_left]. fold (run (step w e) es).
    apply IH; [intros I; apply N; now right| |]; destruct w as [ss st u qu fi t li]; cbn in U, T; subst; destruct e; cbn; auto; try (exfalso; apply N; now left);
    destruct t, fi; cbn; try congruence; auto. }
  apply G; auto. discriminate.
Qed.
Print Assumptions C226_clean.

Theorem C226_ended : forall q es es', final (run (started q) es) -> ~ In Shutdown (es ++ es') -> ~ In Put es' -> 4 <= steps es' ->
  th (run (started q) (es ++ es')) = Ended.
Proof.
  intros q es es' F N P S. pose proof (C226_clean q (es ++ es') N) as C. unfold run in *. rewrite fold_left_app in *.
  destruct (C226_ends _ es' F P S) as [H|H]; [exact H|contradiction].
Qed.
Print Assumptions C226_ended.

(** ** nothing waits for the thread: stop() can shut down the manager before its last step, which then ends with an exception *)
Theorem C226_race_refuted : forall q es, Forall ordinary es -> th (run (started q) (es ++ [ShouldStop; Stop; Shutdown; Step])) = Died.
Proof.
  intros q es H. destruct (C226_prints es q H) as (T & _ & F).
  assert (U : up (run (started q) es) = true).
  { clear T F. assert (G : forall es w, Forall ordinary es -> up w = true -> up (run w es) = true).
    { clear. induction es as [|e es IH]; intros w F U; [exact U|]. inversion F as [|? ? O F']; subst. cbn [run fold_left]. fold (run (step w e) es). apply IH; auto.
      destruct w as [ss st u qu fi t li]. cbn in U. subst. destruct O as [->|[->| ->]]; cbn; auto. destruct t, fi; reflexivity. }
    apply G; auto. }
  unfold run at 1. rewrite fold_left_app. fold (run (started q) es). destruct (run (started q) es) as [ss st u qu fi t li]. cbn in T, F, U. subst.
  destruct T as [->| ->]; reflexivity.
Qed.
Print Assumptions C226_race_refuted.

Example C226_example : Forall ordinary [Put; Step; Step; Get; Step; Step] /\
  run (started 0) [Put; Step; Step; Get; Step; Step; ShouldStop; Step; Step; Stop; Step; Shutdown] = mkworld true true false 0 true Ended 3 /\
  final (run (started 1) [ShouldStop; Get]) /\ ~ final (run (started 2) [ShouldStop; Get]).
Proof.
  split; [unfold ordinary; repeat (constructor; [tauto|]); constructor|]. split; [reflexivity|]. split; [right; left; auto|].
  intros [H|[[_ H]|H]]; discriminate.
Qed.
