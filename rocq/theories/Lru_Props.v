(** C156: results do not depend on how many fits there are *)
From Coq Require Import List Arith Bool String Lia.
From Verif Require Import Base Ses_Model Ses_Spec Lru_Model Lru_Spec Lru_Proofs.
Import ListNotations.
Local Open Scope list_scope.

Lemma lrun_app {Val} n (init : nat -> pval Val * pval Val) l a : lrun n init (l ++ [a]) = lstep n (lrun n init l) a.
Proof. unfold lrun. now rewrite fold_left_app. Qed.
Lemma lresp_app {Val} (init : nat -> pval Val * pval Val) l a : lrespectful init (l ++ [a]) -> lrespectful init l /\ (forall o ps, evaluation a o ps -> lrespects (defs init l o) ps).
Proof.
  intros H. split; [|intros o ps E; now apply (H l a [])].
  intros l' a' r' o ps E. apply (H l' a' (r' ++ [a])). rewrite E, <- app_assoc. reflexivity.
Qed.
Lemma distinct_incl l l' : incl l l' -> distinct l <= distinct l'.
Proof. intros I. unfold distinct. apply NoDup_incl_length; [apply NoDup_nodup|]. intros x X. apply nodup_In in X. apply nodup_In. now apply I. Qed.
Lemma few_empty {Val} (d : nat -> pval Val * pval Val) u : fewinv (mkl d [] [] [] []) u /\ sync (mkl d [] [] [] []).
Proof.
  assert (O : forall q, okq (mkl d [] [] [] []) q) by (repeat split; discriminate).
  repeat split; try constructor; try discriminate; intros z [].
Qed.
Lemma defs_run {Val} n (init : nat -> pval Val * pval Val) ops : 0 < n -> lrespectful init ops -> l_def (lrun n init ops) = defs init ops.
Proof.
  intros Hn. induction ops as [|a l IH] using rev_ind; intros R; [reflexivity|]. apply lresp_app in R. destruct R as [R _]. specialize (IH R).
  rewrite lrun_app. unfold defs in *. rewrite fold_left_app. cbn [fold_left]. rewrite <- IH. set (s := lrun n init l) in *. clearbody s. clear.
  assert (GV : forall s o, l_def (snd (get_V (Val := Val) n s o)) = l_def s) by (intros; unfold get_V; now destruct (lfind (l_V s0) o)).
  assert (GO : forall s o, l_def (snd (get_O (Val := Val) n s o)) = l_def s) by (intros; unfold get_O; destruct (lfind (l_O s0) o); [reflexivity|]; rewrite <- (GV s0 o); now destruct (get_V n s0 o)).
  assert (GT : forall s o, l_def (snd (get_T (Val := Val) n s o)) = l_def s) by (intros; unfold get_T; destruct (lfind (l_T s0) o); [reflexivity|]; rewrite <- (GV s0 o); now destruct (get_V n s0 o)).
  assert (GS : forall s o, l_def (lset_model (Val := Val) n s o) = l_def s).
  { intros. unfold lset_model. destruct (lfind (l_S s0) o); [reflexivity|]. rewrite <- (GV s0 o). destruct (get_V n s0 o) as [x s1]. cbn [snd].
    rewrite <- (GT s1 o). destruct (get_T n s1 o) as [y s2]. cbn [snd]. rewrite <- (GO s2 o). now destruct (get_O n s2 o). }
  assert (GE : forall sm s o ps, l_def (snd (leval (Val := Val) n sm s o ps)) = l_def s).
  { intros. unfold leval. set (s1 := if sm then lset_model n s0 o else s0). assert (E1 : l_def s1 = l_def s0) by (subst s1; destruct sm; [apply GS|reflexivity]). rewrite <- E1. clearbody s1.
    rewrite <- (GV s1 o). destruct (get_V n s1 o) as [x s2]. cbn [snd]. rewrite <- (GO s2 o). destruct (get_O n s2 o) as [g s3]. cbn [snd].
    destruct (new_value "omega" ps g (fst x)) as [a1|]; [|reflexivity]. change (l_def s3) with (l_def (lwrite s3 o (a1, snd x))). rewrite <- (GT (lwrite s3 o (a1, snd x)) o).
    destruct (get_T n _ o) as [h s4]. cbn [snd]. now destruct (new_value "tau" ps h (snd x)). }
  destruct a; cbn [lstep def_step]; [apply GE|apply GE|apply GV|reflexivity|reflexivity].
Qed.

(** At most maxsize different objects used since the caches were cleared (including this evaluation): every evaluation
    gives what definition and parameters require, after any history, also with failed evaluations and accesses of V. *)
Theorem C156_few_objects_partial : forall Val n (init : nat -> pval Val * pval Val) ops sm o ps,
  lrespectful init ops -> lrespects (defs init ops o) ps -> distinct (o :: used ops) <= n ->
  fst (leval n sm (lrun n init ops) o ps) = lexpected (defs init ops o) ps.
Proof.
  intros Val n init ops sm o ps R Rp L.
  assert (Hn : 0 < n). { assert (1 <= distinct (o :: used ops)); [|lia]. change 1 with (distinct [o]). apply distinct_incl. intros z [->|[]]. now left. }
  assert (I : fewinv (lrun n init ops) (used ops)).
  { assert (L' : distinct (used ops) <= n) by (apply Nat.le_trans with (2 := L), distinct_incl; now right). clear L Rp o ps.
    induction ops as [|a l IH] using rev_ind; [apply few_empty|]. pose proof (lresp_app _ _ _ R) as [R1 R2]. rewrite lrun_app.
    assert (D := defs_run n init l Hn R1). unfold used in *. rewrite fold_left_app in *. cbn [fold_left] in *. set (u := fold_left used_step l []) in *. set (s := lrun n init l) in *. clearbody s u.
    assert (IH' : (exists q, used_step u a = q :: u) -> fewinv s u). { intros [q Q]. apply (IH R1). apply Nat.le_trans with (2 := L'). rewrite Q. apply distinct_incl. now right. }
    destruct a as [o ps|o ps|o|o d|]; cbn [used_step lstep] in *.
    - specialize (IH' (ex_intro _ o eq_refl)). destruct IH' as (N & Ok & X). pose proof (leval_spec n Hn true s o ps N (Ok o)) as G. rewrite D in G. specialize (G (R2 o ps (or_introl eq_refl))).
      destruct (leval n true s o ps) as [r s']. destruct G as (_ & G1 & G2 & _). apply (few_acc n Hn s s' o u); auto. exact (conj N (conj Ok X)).
    - specialize (IH' (ex_intro _ o eq_refl)). destruct IH' as (N & Ok & X). pose proof (leval_spec n Hn false s o ps N (Ok o)) as G. rewrite D in G. specialize (G (R2 o ps (or_intror eq_refl))).
      destruct (leval n false s o ps) as [r s']. destruct G as (_ & G1 & G2 & _). apply (few_acc n Hn s s' o u); auto. exact (conj N (conj Ok X)).
    - specialize (IH' (ex_intro _ o eq_refl)). destruct IH' as (N & Ok & X). pose proof (get_V_spec n Hn s o (Ok o)) as G.
      destruct (get_V n s o) as [r s']. destruct G as (G1 & _ & G2 & _). apply (few_acc n Hn s s' o u); auto. exact (conj N (conj Ok X)).
    - apply few_empty.
    - apply few_empty. }
  destruct I as (N & Ok & _). pose proof (leval_spec n Hn sm _ o ps N (Ok o)) as G. rewrite (defs_run n init ops Hn R) in G. specialize (G Rp).
  destruct (leval n sm _ o ps). apply G.
Qed.
Print Assumptions C156_few_objects_partial.

(** Any number of objects: correct if all evaluations so far succeeded and V was not accessed otherwise. *)
Theorem C156_many_objects_partial : forall Val n (init : nat -> pval Val * pval Val) ops sm o ps,
  0 < n -> lrespectful init ops -> lrespects (defs init ops o) ps -> successful init ops ->
  fst (leval n sm (lrun n init ops) o ps) = lexpected (defs init ops o) ps.
Proof.
  intros Val n init ops sm o ps Hn R Rp S.
  assert (I : sync (lrun n init ops)).
  { clear Rp o ps sm. induction ops as [|a l IH] using rev_ind; [apply (few_empty init [])|]. pose proof (lresp_app _ _ _ R) as [R1 R2]. rewrite lrun_app.
    assert (S1 : successful init l). { intros l' a' r' E. apply (S l' a' (r' ++ [a])). rewrite E, <- app_assoc. reflexivity. }
    specialize (S l a [] eq_refl). specialize (IH R1 S1). assert (D := defs_run n init l Hn R1). set (s := lrun n init l) in *. clearbody s.
    destruct a as [o ps|o ps|o|o d|]; cbn [lstep].
    - pose proof IH as (N & Ok & X). pose proof (leval_spec n Hn true s o ps N (Ok o)) as G. rewrite D in G. specialize (G (R2 o ps (or_introl eq_refl))).
      destruct (leval n true s o ps) as [r s']. destruct G as (Er & G1 & G2 & G3). rewrite <- Er in S. destruct (G3 S) as (A & B & C). apply (sync_acc n s s' o); auto. apply G1.
    - pose proof IH as (N & Ok & X). pose proof (leval_spec n Hn false s o ps N (Ok o)) as G. rewrite D in G. specialize (G (R2 o ps (or_intror eq_refl))).
      destruct (leval n false s o ps) as [r s']. destruct G as (Er & G1 & G2 & G3). rewrite <- Er in S. destruct (G3 S) as (A & B & C). apply (sync_acc n s s' o); auto. apply G1.
    - destruct S.
    - apply (few_empty _ []).
    - apply (few_empty _ []). }
  destruct I as (N & Ok & _). pose proof (leval_spec n Hn sm _ o ps N (Ok o)) as G. rewrite (defs_run n init ops Hn R) in G. specialize (G Rp).
  destruct (leval n sm _ o ps). apply G.
Qed.
Print Assumptions C156_many_objects_partial.

(** 129 objects with omega = 2*w and tau = t *)
Definition eg_def (_ : nat) : pval nat * pval nat :=
  (Sym ["w"%string] (fun l => 2 * nth 0 l 0), Sym ["t"%string] (fun l => nth 0 l 0)).
Definition eg_ps (w t : nat) : list (string * nat) := [("w"%string, w); ("t"%string, t)].
Lemma eg_resp ops : lrespectful eg_def ops \/ exists o d, In (LAssign o d) ops.
Proof.
  assert (H : (exists o d, In (LAssign o d) ops) \/ forall o d, ~ In (LAssign o d) ops).
  { induction ops as [|a l [(o & d & H)|H]]; [right; intros o d []|left; exists o, d; now right|].
    destruct a; try (right; intros o' d' [E|E]; [discriminate|now apply (H o' d')]). left. exists o, d. now left. }
  destruct H as [H|H]; [now right|]. left. intros l a r o ps E _.
  assert (D : defs eg_def l = eg_def).
  { assert (H' : forall o d, ~ In (LAssign o d) l) by (intros o' d' J; apply (H o' d'); rewrite E; apply in_or_app; now left). clear -H'.
    unfold defs. induction l as [|a l IH] using rev_ind; [reflexivity|]. rewrite fold_left_app. cbn. rewrite IH by (intros o d J; apply (H' o d), in_or_app; now left).
    destruct a; try reflexivity. exfalso. apply (H' o d), in_or_app. right. now left. }
  rewrite D. split; intros v V; discriminate.
Qed.
Definition eg_fill : list (lop nat) := map (fun o => LCalc o (eg_ps 1 1)) (seq 0 128).
Example C156_example :
  let ops := eg_fill ++ [LTouch 0; LCalc 3 []] in
  distinct (5 :: used ops) <= 128 /\ lexpected (defs eg_def ops 5) (eg_ps 7 8) = Ok (Num 14, Num 8) /\
  let ops := eg_fill ++ [LCalc 128 (eg_ps 1 1); LSlope 129 (eg_ps 1 1)] in
  ~ distinct (5 :: used ops) <= 128 /\ lexpected (defs eg_def ops 0) (eg_ps 7 8) = Ok (Num 14, Num 8).
Proof. cbv zeta. split; [apply Nat.leb_le; vm_compute; reflexivity|]. split; [vm_compute; reflexivity|]. split; [apply Nat.leb_nle; vm_compute; reflexivity|vm_compute; reflexivity]. Qed.
Example C156_example_success : successful eg_def (eg_fill ++ [LCalc 128 (eg_ps 1 1); LSlope 129 (eg_ps 1 1)]).
Proof.
  intros l a r E. assert (I : In a (eg_fill ++ [LCalc 128 (eg_ps 1 1); LSlope 129 (eg_ps 1 1)])) by (rewrite E; apply in_or_app; right; now left).
  assert (D : defs eg_def l = eg_def).
  { assert (J : forall b, In b l -> match b with LAssign _ _ => False | _ => True end).
    { intros b B. assert (I' : In b (eg_fill ++ [LCalc 128 (eg_ps 1 1); LSlope 129 (eg_ps 1 1)])) by (rewrite E; apply in_or_app; now left).
      apply in_app_or in I'. destruct I' as [I'|[<-|[<-|[]]]]; try exact Logic.I. apply in_map_iff in I'. destruct I' as (o & <- & _). exact Logic.I. }
    clear -J. unfold defs. induction l as [|b l IH] using rev_ind; [reflexivity|]. rewrite fold_left_app. cbn. rewrite IH by (intros c C; apply J, in_or_app; now left).
    specialize (J b). destruct b; try reflexivity. destruct J. apply in_or_app. right. now left. }
  rewrite D. apply in_app_or in I. destruct I as [I|[<-|[<-|[]]]].
  - apply in_map_iff in I. destruct I as (o & <- & _). now eexists.
  - now eexists.
  - now eexists.
Qed.

(** With one object more, an access of V (e.g. by printing the definition of the model) makes a later evaluation
    use the parameters of an earlier one. *)
Theorem C156_access_refuted : exists (ops : list (lop nat)) ps,
  lrespectful eg_def ops /\ (forall a, In a ops -> a = LTouch 0 \/ exists o, o <= 128 /\ a = LCalc o (eg_ps 1 1)) /\
  lexpected (defs eg_def ops 0) ps = Ok (Num 14, Num 8) /\
  fst (leval 128 true (lrun 128 eg_def ops) 0 ps) = Ok (Num 2, Num 1).
Proof.
  exists (eg_fill ++ [LTouch 0; LCalc 128 (eg_ps 1 1)]), (eg_ps 7 8).
  assert (H : forall a, In a (eg_fill ++ [LTouch 0; LCalc 128 (eg_ps 1 1)]) -> a = LTouch 0 \/ exists o, o <= 128 /\ a = LCalc o (eg_ps 1 1)).
  { intros a I. apply in_app_or in I. destruct I as [I|[<-|[<-|[]]]]; [right|now left|right; exists 128; auto].
    apply in_map_iff in I. destruct I as (o & <- & O). apply in_seq in O. exists o. split; [lia|reflexivity]. }
  split; [|split; [exact H|split; vm_compute; reflexivity]].
  destruct (eg_resp (eg_fill ++ [LTouch 0; LCalc 128 (eg_ps 1 1)])) as [R|(o & d & I)]; [exact R|]. destruct (H _ I) as [E|(q & _ & E)]; discriminate.
Qed.
Print Assumptions C156_access_refuted.

(** So does a failed evaluation (a parameter is missing). *)
Theorem C156_failed_evaluation_refuted : exists (ops : list (lop nat)) ps,
  lrespectful eg_def ops /\ (forall a, In a ops -> exists o qs, o <= 128 /\ a = LCalc o qs) /\
  lexpected (defs eg_def ops 0) ps = Ok (Num 14, Num 8) /\
  fst (leval 128 true (lrun 128 eg_def ops) 0 ps) = Ok (Num 14, Num 1).
Proof.
  exists (eg_fill ++ [LCalc 0 [("t"%string, 1)]; LCalc 128 (eg_ps 1 1)]), (eg_ps 7 8).
  assert (H : forall a, In a (eg_fill ++ [LCalc 0 [("t"%string, 1)]; LCalc 128 (eg_ps 1 1)]) -> exists o qs, o <= 128 /\ a = LCalc o qs).
  { intros a I. apply in_app_or in I. destruct I as [I|[<-|[<-|[]]]]; [|exists 0; eexists; split; [lia|reflexivity]|exists 128; eexists; split; [lia|reflexivity]].
    apply in_map_iff in I. destruct I as (o & <- & O). apply in_seq in O. exists o. eexists. split; [lia|reflexivity]. }
  split; [|split; [exact H|split; vm_compute; reflexivity]].
  destruct (eg_resp (eg_fill ++ [LCalc 0 [("t"%string, 1)]; LCalc 128 (eg_ps 1 1)])) as [R|(o & d & I)]; [exact R|]. destruct (H _ I) as (q & qs & _ & E); discriminate.
Qed.
Print Assumptions C156_failed_evaluation_refuted.
