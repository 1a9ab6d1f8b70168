(** C59: when every parameter starts with its own values. *)
From Coq Require Import String ZArith Bool Lia Arith List.
From Verif Require Import Base GF_Model Fit_Model Fit_Spec Fit5_Proofs.
Import ListNotations.
Local Open Scope list_scope.

Lemma split_sizes {A} : forall (ns : list nat) (x : list A), exists parts, split_into x (map (fun n => Some (Z.of_nat n)) ns) = Ok parts /\
  length parts = length ns /\ forall i, (length (nth i parts []) <= nth i ns 0)%nat.
Proof.
  induction ns as [|n ns IH]; intros x; cbn [map split_into].
  - exists []. repeat split. intros [|i]; cbn; lia.
  - destruct (Z.ltb_spec (Z.of_nat n) 0); [lia|]. rewrite Nat2Z.id. destruct (IH (skipn n x)) as (parts & -> & L & HP). cbn [bind].
    exists (firstn n x :: parts). split; [reflexivity|]. split; [cbn; lia|]. intros [|i]; cbn [nth]; [rewrite firstn_length; lia|apply HP].
Qed.
Lemma tight {A} : forall (l : list A) (f g : A -> nat), (forall i d, (i < length l)%nat -> (f (nth i l d) <= g (nth i l d))%nat) -> total (map f l) = total (map g l) -> forall y, In y l -> f y = g y.
Proof.
  intros l f g. assert (LE : forall l, (forall y, In y l -> (f y <= g y)%nat) -> (total (map f l) <= total (map g l))%nat).
  { induction l0 as [|a r IH]; intros H; [cbn; lia|]. cbn. pose proof (H a (or_introl eq_refl)). specialize (IH (fun y I => H y (or_intror I))). unfold total in IH. lia. }
  intros H E. assert (H' : forall y, In y l -> (f y <= g y)%nat). { intros y I. destruct (In_nth l y y I) as (i & L & <-). now apply H. }
  clear H. induction l as [|a r IH]; intros y I; [destruct I|]. cbn in E. pose proof (H' a (or_introl eq_refl)) as Ha.
  pose proof (LE r (fun y I => H' y (or_intror I))) as Hr. unfold total in Hr. destruct I as [<-|I]; [lia|]. apply IH; [unfold total; lia|intros z J; apply H'; now right|exact I].
Qed.
Lemma total_concat {A B} (f : A -> list B) (l : list A) : length (concat (map f l)) = total (map (fun y => length (f y)) l).
Proof. induction l as [|a r IH]; [reflexivity|]. cbn. rewrite app_length, IH. reflexivity. Qed.

(** If the start vector has the length that the optimiser expects, every parameter starts with its own values exactly if
    each list of start values has one value for each group; otherwise the values are shifted, silently. *)
Theorem C59_exactly : forall V (mean : list V -> V) gi ps o, order mean gi ps = Ok o ->
  length (start_vector o) = total (map (fun y => ngroups gi (snd (fst y))) o) ->
  (split_vector gi o (start_vector o) = Ok (map (fun y => (fst (fst y), snd y)) o) <-> forall y, In y o -> length (snd y) = ngroups gi (snd (fst y))).
Proof.
  intros V mean gi ps o O L. split; [|intros H; now apply split_vector_parts].
  unfold split_vector. rewrite splitpos_sizes. set (ns := map _ o) in *.
  destruct (split_sizes ns (start_vector o)) as (parts & -> & LP & H). cbn [bind]. intros E.
  assert (P : parts = map snd o).
  { injection E as E. assert (Q : length parts = length o) by (rewrite LP; unfold ns; apply map_length). clear - E Q. revert parts E Q.
    induction o as [|y o IH]; intros [|q parts] E Q; try discriminate; [reflexivity|]. cbn in *. injection E as -> E. f_equal. apply IH; [exact E|lia]. }
  apply tight.
  - intros i d I. specialize (H i). rewrite P in H. rewrite (nth_indep _ _ (snd d)) in H by (rewrite map_length; exact I). rewrite map_nth in H.
    unfold ns in H. rewrite (nth_indep _ _ (ngroups gi (snd (fst d)))) in H by (rewrite map_length; exact I). rewrite (map_nth (fun x => ngroups gi (snd (fst x)))) in H. exact H.
  - fold ns. rewrite <- L. unfold start_vector. now rewrite total_concat.
Qed.
Print Assumptions C59_exactly.
(** two parameters with two groups each; three and one start values *)
Example C59_exactly_example :
  let ps := [("omega"%string, mkparam FManual [1; 1; 2; 2]%Z (SList [5; 6; 7]%Z) [1]%Z [8]%Z); ("N"%string, mkparam FManual [1; 2; 2; 1]%Z (SList [9]%Z) [1]%Z [8]%Z)] in
  exists o, order (fun _ => 0%Z) [11; 12; 22; 21]%Z ps = Ok o /\ length (start_vector o) = total (map (fun y => ngroups [11; 12; 22; 21]%Z (snd (fst y))) o) /\
    split_vector [11; 12; 22; 21]%Z o (start_vector o) = Ok [("omega"%string, [5; 6]%Z); ("N"%string, [7; 9]%Z)].
Proof. cbv zeta. eexists. split; [vm_compute; reflexivity|]. split; vm_compute; reflexivity. Qed.
