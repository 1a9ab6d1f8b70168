(** Property C147: which evaluations change the results of a fit
    (rt1/rtfits.py:1652-1660).
    Only property theorems, examples and assumption listings. *)
From Coq Require Import QArith Arith String List Lia.
From Verif Require Import Base Base_Proofs Par_Model Par_Spec Par_Proofs Par2_Proofs Par_Props.
Import ListNotations.
Local Open Scope string_scope.
Local Open Scope list_scope.

(** the dicts stay as they were exactly if the values are assigned or there are
    no auxiliary values; in all cases only the dict that was handed over
    changes, and its own values remain *)
Theorem C147_exactly : forall (Val : Type) d assign expand (h : heap Val) ref fixed h' r, NoDup (keys d) -> (ref < length h)%nat ->
  fit_dicts true d (at_ Val h ref) fixed -> set_calc_dicts Val assign expand h ref fixed = (h', r) ->
  ((forall i, (i < length h)%nat -> at_ Val h' i = at_ Val h i) <-> assign = true \/ fixed = []) /\
  (forall i, (i < length h)%nat -> i <> ref -> at_ Val h' i = at_ Val h i) /\
  (forall k v, dget string_dec k (at_ Val h ref) = Some v -> dget string_dec k (at_ Val h' ref) = Some v).
Proof.
  intros Val d assign expand h ref fixed h' r ND L FD E. pose proof FD as (_ & NF & R & F). destruct assign.
  - destruct (C147_assign Val expand h ref fixed h' r L NF E) as [U _].
    split; [split; auto|]. split; [intros i Hi _; apply U, Hi|]. intros k v H. rewrite U by exact L. exact H.
  - split; [split|split].
    + intros U. right. destruct fixed as [|[k v] fixed]; [reflexivity|exfalso].
      destruct (C147_no_assign_refuted Val d expand h ref ((k, v) :: fixed) k v h' r ND L FD (or_introl eq_refl) E) as (A & B & _).
      rewrite (U ref L) in B. contradiction.
    + intros [H|H]; [discriminate|]. subst fixed. unfold set_calc_dicts in E. cbn [fst snd] in E. injection E as <- <-.
      intros i Hi. rewrite at_put by exact L. destruct (Nat.eqb i ref) eqn:X; [|reflexivity].
      apply Nat.eqb_eq in X. subst i. reflexivity.
    + unfold set_calc_dicts in E. cbn [fst snd] in E. injection E as <- <-. intros i Hi N. rewrite at_put by exact L.
      destruct (Nat.eqb i ref) eqn:X; [apply Nat.eqb_eq in X; contradiction|reflexivity].
    + unfold set_calc_dicts in E. cbn [fst snd] in E. injection E as <- <-. intros k v H. rewrite at_put, Nat.eqb_refl by exact L.
      rewrite dget_dupdate by exact NF. destruct (dget string_dec k fixed) eqn:X; [exfalso|exact H].
      assert (Kf : In k (keys fixed)) by (apply (dget_in_keys string_dec); congruence).
      assert (Kr : In k (keys (at_ Val h ref))) by (apply (dget_in_keys string_dec); congruence).
      apply F in Kf. apply R in Kr. destruct Kf as [_ Kf]. pose proof (unique_entry d k _ _ ND Kr Kf). discriminate.
Qed.
Print Assumptions C147_exactly.

Example C147_exactly_example :
  let h := [eg_r; eg_f] in
  NoDup (keys eg_d) /\ fit_dicts true eg_d (at_ Q h 0) eg_f /\ eg_f <> [] /\
  fst (set_calc_dicts Q false (fun _ v => v) h 0 eg_f) = [[("a", 5%Q); ("b", 7%Q); ("omega", 9%Q)]; eg_f].
Proof.
  intros h. split; [repeat constructor; simpl; intuition discriminate|]. split; [apply C147_example|].
  split; [discriminate|reflexivity].
Qed.
