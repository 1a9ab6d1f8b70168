(** Names of the worker processes (C182) *)
From Coq Require Import List Arith Lia Bool.
From Verif Require Import Wnm_Model Wnm_Spec.
Import ListNotations.

Definition done (w : wpc) : bool := match w with Put | Named _ => true | _ => false end.
Definition cnt (l : list wpc) : nat := List.length (filter done l).

Lemma upd_length {A} i (x : A) l : List.length (upd i x l) = List.length l.
Proof. revert i. induction l as [|y l IH]; intros [|i]; cbn; auto. Qed.
Lemma nth_upd_same {A} i (x y : A) l : nth_error l i = Some y -> nth_error (upd i x l) i = Some x.
Proof. revert i. induction l as [|z l IH]; intros [|i]; cbn; try discriminate; auto. Qed.
Lemma nth_upd_other {A} i j (x : A) l : i <> j -> nth_error (upd i x l) j = nth_error l j.
Proof. revert i j. induction l as [|z l IH]; intros [|i] [|j] N; cbn; try congruence; try reflexivity. apply IH. congruence. Qed.
Lemma upd_in {A} i (x y : A) l : In y (upd i x l) -> y = x \/ In y l.
Proof. revert i. induction l as [|z l IH]; intros [|i]; cbn; try tauto; [intuition|]. intros [E|E]; [tauto|]. destruct (IH _ E); tauto. Qed.
Lemma cnt_upd i x y l : nth_error l i = Some y -> cnt (upd i x l) + (if done y then 1 else 0) = cnt l + (if done x then 1 else 0).
Proof.
  unfold cnt. revert i. induction l as [|z l IH]; intros [|i]; cbn; try discriminate.
  - intros E. injection E as <-. destruct (done x), (done z); cbn; lia.
  - intros E. specialize (IH i E). destruct (done z); cbn; lia.
Qed.
Lemma cnt_le l : cnt l <= List.length l.
Proof. unfold cnt. induction l as [|z l IH]; cbn; [lia|]. destruct (done z); cbn; lia. Qed.
Lemma cnt_pos l w : In w l -> done w = true -> 1 <= cnt l.
Proof. unfold cnt. induction l as [|z l IH]; [intros []|]. intros [->|I] D; cbn; [rewrite D; cbn; lia|]. specialize (IH I D). destruct (done z); cbn; lia. Qed.

Definition inv (s : wstate) : Prop :=
  counter s <= cnt (workers s) /\ (1 <= cnt (workers s) -> 1 <= counter s) /\
  (forall x, In (Got x) (workers s) -> x <= cnt (workers s)) /\ (forall k, In (Named k) (workers s) -> 1 <= k <= cnt (workers s)).
Lemma inv_step s i : inv s -> inv (step s i).
Proof.
  intros (H1 & H2 & H3 & H4). unfold step. destruct (nth_error (workers s) i) as [w|] eqn:E; [|repeat split; auto; apply H4; assumption].
  destruct w as [|x| |k]; [| | |repeat split; auto; apply H4; assumption].
  - assert (C := cnt_upd i (Got (counter s)) Start (workers s) E). cbn in C. unfold inv. cbn [counter workers].
    replace (cnt (upd i (Got (counter s)) (workers s))) with (cnt (workers s)) by lia. split; [exact H1|]. split; [exact H2|]. split.
    + intros x I. destruct (upd_in _ _ _ _ I) as [X|X]; [injection X as ->; exact H1|auto].
    + intros k I. destruct (upd_in _ _ _ _ I) as [X|X]; [discriminate|auto].
  - assert (C := cnt_upd i Put (Got x) (workers s) E). cbn in C. assert (X := H3 x (nth_error_In _ _ E)). unfold inv. cbn [counter workers].
    split; [lia|]. split; [lia|]. split.
    + intros y I. destruct (upd_in _ _ _ _ I) as [Y|Y]; [discriminate|]. specialize (H3 y Y). lia.
    + intros k I. destruct (upd_in _ _ _ _ I) as [Y|Y]; [discriminate|]. specialize (H4 k Y). lia.
  - assert (C := cnt_upd i (Named (counter s)) Put (workers s) E). cbn in C. assert (P := cnt_pos _ _ (nth_error_In _ _ E) eq_refl). unfold inv. cbn [counter workers].
    replace (cnt (upd i (Named (counter s)) (workers s))) with (cnt (workers s)) by lia. split; [exact H1|]. split; [exact H2|]. split.
    + intros y I. destruct (upd_in _ _ _ _ I) as [Y|Y]; [discriminate|auto].
    + intros k I. destruct (upd_in _ _ _ _ I) as [Y|Y]; [injection Y as ->; lia|auto].
Qed.
Lemma inv_run n es : inv (run n es) /\ List.length (workers (run n es)) = n.
Proof.
  unfold run. induction es as [|e es IH] using rev_ind.
  - cbn. split; [|apply repeat_length]. repeat split; cbn; try lia.
    + unfold cnt. assert (Z : filter done (repeat Start n) = []) by (clear; induction n; cbn; auto). rewrite Z. cbn. lia.
    + intros x I. apply repeat_spec in I. discriminate.
    + apply repeat_spec in H. discriminate.
    + apply repeat_spec in H. discriminate.
  - rewrite fold_left_app. cbn. destruct IH as [I L]. split; [apply inv_step, I|]. revert L. generalize (fold_left step es (init n)). intros s L. unfold step.
    destruct (nth_error _ _) as [[]|]; cbn; rewrite ?upd_length; exact L.
Qed.

(** Whatever the order of requests, the numbers are between 1 and the number of workers. *)
Theorem C182_range : forall n es i k, is_named (run n es) i k -> 1 <= k <= n.
Proof.
  intros n es i k H. destruct (inv_run n es) as [(_ & _ & _ & I) L]. specialize (I k (nth_error_In _ _ H)). assert (C := cnt_le (workers (run n es))). lia.
Qed.
Print Assumptions C182_range.

(** A name is given once. *)
Theorem C182_kept : forall n es es' i k, is_named (run n es) i k -> is_named (run n (es ++ es')) i k.
Proof.
  intros n es es' i k H. unfold run in *. rewrite fold_left_app. revert H. generalize (fold_left step es (init n)). clear es.
  induction es' as [|e es' IH]; intros s H; [exact H|]. cbn. apply IH. unfold is_named, step in *.
  destruct (Nat.eq_dec e i) as [->|N]; [rewrite H; exact H|]. destruct (nth_error (workers s) e) as [[]|]; cbn; rewrite ?nth_upd_other by exact N; exact H.
Qed.
Print Assumptions C182_kept.

(** If the workers start one after the other they are called RTprocess-1, RTprocess-2, ... in this order; so all names differ. *)
Theorem C182_one_by_one : forall n l p i, NoDup l -> (forall j, In j l -> j < n) -> nth_error l p = Some i -> is_named (run n (one_by_one l)) i (S p).
Proof.
  intros n l p i ND B H.
  assert (G : forall l s, NoDup l -> (forall j, In j l -> nth_error (workers s) j = Some Start) ->
    let s' := fold_left step (one_by_one l) s in
    (forall q j, nth_error l q = Some j -> nth_error (workers s') j = Some (Named (counter s + S q))) /\
    (forall j, ~ In j l -> nth_error (workers s') j = nth_error (workers s) j)).
  { clear. induction l as [|x l IH]; intros s ND S; [cbn; split; [intros [|q] j; discriminate|reflexivity]|].
    inversion ND as [|? ? N1 N2]; subst. assert (X := S x (or_introl eq_refl)).
    assert (T : fold_left step [x; x; x] s = mkw (counter s + 1) (upd x (Named (counter s + 1)) (upd x Put (upd x (Got (counter s)) (workers s))))).
    { cbn [fold_left]. unfold step at 3. rewrite X. unfold step at 2. cbn [workers counter]. rewrite (nth_upd_same x _ Start) by exact X. cbn [workers counter].
      unfold step. cbn [workers counter]. rewrite (nth_upd_same x _ (Got (counter s))) by (apply (nth_upd_same x _ Start), X). rewrite Nat.add_1_r. reflexivity. }
    unfold one_by_one. cbn [flat_map]. rewrite fold_left_app, T. set (s1 := mkw _ _).
    assert (W : forall j, j <> x -> nth_error (workers s1) j = nth_error (workers s) j) by (intros j J; unfold s1; cbn [workers]; rewrite !nth_upd_other by congruence; reflexivity).
    destruct (IH s1 N2) as [A B].
    { intros j J. rewrite W by (intros ->; contradiction). apply S. right. exact J. }
    split.
    - intros [|q] j Q; cbn in Q.
      + injection Q as <-. fold (one_by_one l). rewrite (B x N1). unfold s1. cbn [workers]. apply (nth_upd_same x _ Put). apply (nth_upd_same x _ (Got (counter s))). apply (nth_upd_same x _ Start), X.
      + fold (one_by_one l). rewrite (A q j Q). unfold s1. cbn [counter]. do 2 f_equal. lia.
    - intros j J. fold (one_by_one l). rewrite (B j) by (intros K; apply J; right; exact K). apply W. intros ->. apply J. left. reflexivity. }
  unfold is_named, run. destruct (G l (init n) ND) as [A _].
  - intros j J. cbn. specialize (B j J). clear - B. revert j B. induction n as [|n IH]; intros [|j] B; cbn; try lia; [reflexivity|]. apply IH. lia.
  - apply (A p i H).
Qed.
Print Assumptions C182_one_by_one.

(** If they start at the same time, all of them may be called RTprocess-1. *)
Lemma steps_all (f : wpc -> wpc) n s : List.length (workers s) = n ->
  forall c, (forall t i, i < n -> nth_error (workers t) i = nth_error (workers s) i -> counter t = counter s \/ counter t = c ->
     exists w, nth_error (workers s) i = Some w /\ workers (step t i) = upd i (f w) (workers t) /\ counter (step t i) = c) ->
  0 < n -> workers (fold_left step (seq 0 n) s) = map f (workers s) /\ counter (fold_left step (seq 0 n) s) = c.
Proof.
  intros L c H Pn.
  assert (G : forall m k t, k + m = n -> (forall i, k <= i -> nth_error (workers t) i = nth_error (workers s) i) -> firstn k (workers t) = map f (firstn k (workers s)) ->
    List.length (workers t) = n -> (k = 0 -> counter t = counter s) -> (0 < k -> counter t = c) ->
    workers (fold_left step (seq k m) t) = map f (workers s) /\ (0 < k + m -> counter (fold_left step (seq k m) t) = c)).
  { induction m as [|m IH]; intros k t K A F Lt C0 C1.
    - cbn. split; [|intros; apply C1; lia]. rewrite !firstn_all2 in F by lia. exact F.
    - cbn [seq fold_left]. destruct (H t k) as (w & W1 & W2 & W3); [lia|apply A; lia|destruct k; [left; auto|right; apply C1; lia]|].
      destruct (IH (S k) (step t k)) as [X Y]; [lia| | | | | |split; [exact X|intros; apply Y; lia]].
      + intros i I. rewrite W2, nth_upd_other by lia. apply A. lia.
      + rewrite W2. assert (Z : forall (l : list wpc) k w v, nth_error l k = Some v -> firstn (S k) (upd k w l) = firstn k l ++ [w]).
        { clear. induction l as [|y l IH]; intros [|k] w v E; cbn in *; try discriminate; [reflexivity|]. f_equal. apply (IH k w v E). }
        assert (Z2 : forall (l : list wpc) k v, nth_error l k = Some v -> firstn (S k) l = firstn k l ++ [v]).
        { clear. induction l as [|y l IH]; intros [|k] v E; cbn in *; try discriminate; [injection E as ->; reflexivity|]. f_equal. apply (IH k v E). }
        rewrite (Z _ k (f w) w) by (rewrite A by lia; exact W1). rewrite (Z2 (workers s) k w W1), map_app, F. reflexivity.
      + rewrite W2, upd_length. exact Lt.
      + lia.
      + intros _. exact W3. }
  destruct (G n 0 s) as [X Y]; auto; try (intros; lia).
Qed.
Theorem C182_at_once_refuted : forall n i, i < n -> is_named (run n (at_once n)) i 1.
Proof.
  intros n i B. assert (Pn : 0 < n) by lia. unfold at_once, run, is_named. rewrite !fold_left_app.
  assert (Len : List.length (workers (init n)) = n) by apply repeat_length.
  destruct (steps_all (fun _ => Got 0) n (init n) Len 0) as [A1 A2]; auto.
  { intros t j J E C. assert (Z : nth_error (repeat Start n) j = Some Start) by (clear - J; revert j J; induction n as [|n IH]; intros [|j] J; cbn; try lia; [reflexivity|]; apply IH; lia).
    exists Start. split; [exact Z|]. unfold step. rewrite E. cbn [workers init]. rewrite Z. cbn [workers counter]. assert (counter t = 0) by (destruct C as [C|C]; exact C). rewrite H. auto. }
  set (s1 := fold_left step (seq 0 n) (init n)) in *. assert (W1 : workers s1 = repeat (Got 0) n) by (rewrite A1; cbn; clear; induction n; cbn; congruence).
  assert (Nth : forall (x : wpc) j, j < n -> nth_error (repeat x n) j = Some x) by (clear; intros x; induction n as [|n IH]; intros [|j] J; cbn; try lia; [reflexivity|]; apply IH; lia).
  destruct (steps_all (fun _ => Put) n s1) with (c := 1) as [B1 B2]; auto; [rewrite W1; apply repeat_length| |].
  { intros t j J E C. exists (Got 0). rewrite W1 in *. rewrite Nth in * by exact J. split; [reflexivity|]. unfold step. rewrite E. cbn. auto. }
  set (s2 := fold_left step (seq 0 n) s1) in *. assert (W2 : workers s2 = repeat Put n) by (rewrite B1, W1; clear; induction n; cbn; congruence).
  destruct (steps_all (fun _ => Named 1) n s2) with (c := 1) as [C1 C2]; auto; [rewrite W2; apply repeat_length| |].
  { intros t j J E C. exists Put. rewrite W2 in *. rewrite Nth in * by exact J. split; [reflexivity|]. unfold step. rewrite E. cbn [workers counter].
    assert (X : counter t = 1) by (destruct C as [C|C]; congruence). rewrite X. auto. }
  rewrite C1, W2. clear - B. revert i B. induction n as [|n IH]; intros [|i] B; cbn; try lia; [reflexivity|]. apply IH. lia.
Qed.
Print Assumptions C182_at_once_refuted.

Example C182_example : workers (run 3 (one_by_one [2; 0; 1])) = [Named 2; Named 3; Named 1] /\ workers (run 3 (at_once 3)) = [Named 1; Named 1; Named 1] /\
  workers (run 3 [0; 1; 0; 1; 2; 2; 0; 1; 2]) = [Named 2; Named 2; Named 2].
Proof. repeat split. Qed.
