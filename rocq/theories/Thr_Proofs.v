(** Lemmas of C226. *)
From Coq Require Import Bool Arith List Lia.
From Verif Require Import Base Thr_Model Thr_Spec.
Import ListNotations.
Local Open Scope list_scope.

Lemma final_step w e : final w -> e <> Put -> final (step w e).
Proof.
  intros F N. destruct w as [ss st u qu fi t li]. unfold final in *. cbn in F.
  destruct e; try congruence; cbn; try (destruct u; cbn; intuition (subst; auto); fail).
  destruct t, fi, u; cbn; tauto.
Qed.
Lemma closing_final w : final w -> up w = true -> closing w = true.
Proof.
  unfold final, closing. intros [->|[[-> ->]|H]] U; [apply orb_true_r|reflexivity|congruence].
Qed.
(** steps that are left *)
Definition rank (w : world) : nat :=
  match th w with Ended | Died => 0 | Waiting => if finished w then 1 else 3 | Printing => if finished w then 2 else 4 end.
Lemma rank_step w e : final w -> rank (step w e) <= rank w /\ (e = Step -> rank w = 0 \/ rank (step w e) < rank w).
Proof.
  intros F. pose proof (closing_final w F) as K. destruct w as [ss st u qu fi t li]. cbn [up] in K.
  destruct e; try (split; [destruct u; apply Nat.le_refl|intros X; discriminate X]).
  assert (Q : rank (mkworld ss st u qu fi t li) = 0 /\ rank (step (mkworld ss st u qu fi t li) Step) = 0
    \/ rank (step (mkworld ss st u qu fi t li) Step) < rank (mkworld ss st u qu fi t li)).
  { destruct t, fi, u; unfold rank; cbn [step th finished up]; try rewrite (K eq_refl); try (left; split; reflexivity); right; lia. }
  split; [|intros _]; lia.
Qed.
