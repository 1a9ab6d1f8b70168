(** C171: lines and dates in the plots of results belong to their measurements. *)
From Coq Require Import ZArith QArith Qabs Bool Lia Lqa Permutation Arith List.
From Verif Require Import Base Base_Proofs GF_Proofs Fit_Model Fit_Spec Fit2_Proofs Fit3_Proofs Aln_Model Aln_Spec Aln_Proofs Rsl_Model.
Import ListNotations.
Local Open Scope nat_scope.
Local Open Scope list_scope.

Lemma item_ok {A} (l : list A) i d : i < length l -> item l i = Ok (nth i l d).
Proof. intros H. unfold item. now rewrite (nth_error_nth' l d). Qed.
Lemma item_err {A} (l : list A) i : length l <= i -> item l i = Err IndexError.
Proof. intros H. unfold item. now rewrite (proj2 (nth_error_None l i)). Qed.
Lemma mapM_all {A B} (f : A -> res B) (g : A -> B) l : (forall x, In x l -> f x = Ok (g x)) -> mapM f l = Ok (map g l).
Proof. induction l as [|x l IH]; cbn; intros H; [reflexivity|]. rewrite (H x (or_introl eq_refl)). cbn. rewrite IH by auto. reflexivity. Qed.
Lemma mapM_inv {A B} (f : A -> res B) l m : mapM f l = Ok m -> forall x, In x l -> exists y, f x = Ok y /\ In y m.
Proof.
  revert m. induction l as [|x l IH]; cbn; intros m H z Hz; [destruct Hz|].
  destruct (f x) as [y|] eqn:E; [|discriminate]. cbn in H. destruct (mapM f l) as [ys|] eqn:E2; [|discriminate]. cbn in H. injection H as <-.
  destruct Hz as [<-|Hz]; [exists y; split; auto; now left|]. destruct (IH ys eq_refl z Hz) as (y' & A1 & A2). exists y'. split; auto. now right.
Qed.
Lemma mapM_fails {A B} (f : A -> res B) l e : (forall x, In x l -> (exists y, f x = Ok y) \/ f x = Err e) -> (exists x, In x l /\ f x = Err e) -> mapM f l = Err e.
Proof.
  induction l as [|x l IH]; intros H (z & Hz & E); [destruct Hz|]. cbn. destruct (H x (or_introl eq_refl)) as [[y Ey]|Ey]; rewrite Ey; [|reflexivity]. cbn.
  rewrite IH; [reflexivity|intros; apply H; now right|]. destruct Hz as [->|Hz]; [congruence|eauto].
Qed.

(** ** plot.results *)
(** all lines have the number of their own group exactly if each selected number stands at its own position; in particular for "all" *)
Theorem C171_lines : forall sel n, (forall i, In i sel -> i < n) ->
  (results_lines (Some sel) n = Ok (map (fun i => (i, i)) sel) <-> forall i, In i sel -> nth_error sel i = Some i).
Proof.
  intros sel n H. unfold results_lines, selection. split.
  - intros E i Hi. destruct (mapM_inv _ _ _ E i Hi) as (y & A & B). rewrite (item_ok (seq 0 n) i 0) in A by (rewrite seq_length; auto).
    cbn [bind] in A. rewrite seq_nth in A by auto. cbn [Nat.add] in A. unfold item in A. destruct (nth_error sel i) as [lab|]; [|discriminate]. cbn [bind] in A. injection A as <-.
    apply in_map_iff in B. destruct B as (k & Q & _). injection Q as -> ->. reflexivity.
  - intros E. apply mapM_all. intros i Hi. rewrite (item_ok (seq 0 n) i 0) by (rewrite seq_length; auto). cbn [bind]. rewrite seq_nth by auto.
    unfold item. rewrite (E i Hi). reflexivity.
Qed.
Print Assumptions C171_lines.
Theorem C171_all : forall n, results_lines None n = Ok (map (fun i => (i, i)) (seq 0 n)).
Proof.
  intros n. unfold results_lines, selection. apply mapM_all. intros i Hi. apply in_seq in Hi. rewrite !(item_ok (seq 0 n) i 0) by (rewrite seq_length; lia).
  cbn [bind]. rewrite seq_nth by lia. reflexivity.
Qed.
Print Assumptions C171_all.
(** an ascending selection is right only for the first groups, otherwise it raises an IndexError *)
Fixpoint ascending (l : list nat) : Prop := match l with x :: (y :: _) as r => x < y /\ ascending r | _ => True end.
Arguments ascending : simpl never.
Lemma ascending_cons x y l : ascending (x :: y :: l) <-> x < y /\ ascending (y :: l).
Proof. reflexivity. Qed.
Lemma ascending_nth l : ascending l -> forall i, i < length l -> nth 0 l 0 + i <= nth i l 0.
Proof.
  induction l as [|x l IH]; intros H i Hi; [cbn in Hi; lia|]. destruct i as [|i]; [cbn; lia|]. destruct l as [|y l]; [cbn in Hi; lia|].
  apply ascending_cons in H. destruct H as [H1 H2]. specialize (IH H2 i). cbn [length] in IH, Hi. specialize (IH ltac:(lia)). cbn [nth] in *. lia.
Qed.
Lemma ascending_gap l : ascending l -> forall i j, i <= j -> j < length l -> nth i l 0 + (j - i) <= nth j l 0.
Proof.
  induction l as [|x l IH]; intros H i j Hij Hj; [cbn in Hj; lia|]. destruct i as [|i].
  - rewrite Nat.sub_0_r. now apply ascending_nth.
  - destruct j as [|j]; [lia|]. cbn [nth]. change (S j - S i) with (j - i). apply IH; [|lia|cbn in Hj; lia]. destruct l as [|y l]; [exact I|]. apply ascending_cons in H. apply H.
Qed.
Theorem C171_selection_refuted : forall sel n, ascending sel -> (forall i, In i sel -> i < n) -> sel <> seq 0 (length sel) ->
  results_lines (Some sel) n = Err IndexError.
Proof.
  intros sel n A H N. unfold results_lines, selection.
  assert (X : exists i, In i sel /\ length sel <= i).
  { destruct sel as [|x l]; [cbn in N; congruence|]. set (s := x :: l) in *. exists (nth (length s - 1) s 0).
    assert (Ls : 0 < length s) by (unfold s; cbn; lia). split; [apply nth_In; lia|].
    destruct (Nat.le_gt_cases (length s) (nth (length s - 1) s 0)) as [|G]; auto. exfalso. apply N.
    apply nth_ext with (d := 0) (d' := 0); [now rewrite seq_length|]. intros i Hi. rewrite seq_nth by auto.
    pose proof (ascending_gap s A i (length s - 1) ltac:(lia) ltac:(lia)). pose proof (ascending_nth s A i Hi). lia. }
  apply mapM_fails.
  - intros i Hi. rewrite (item_ok (seq 0 n) i 0) by (rewrite seq_length; auto). cbn [bind]. unfold item. destruct (nth_error sel i); cbn; eauto.
  - destruct X as (i & Hi & Li). exists i. split; auto. rewrite (item_ok (seq 0 n) i 0) by (rewrite seq_length; auto). cbn [bind]. now rewrite item_err.
Qed.
Print Assumptions C171_selection_refuted.
(** other orders give lines with the numbers of other groups *)
Theorem C171_order_refuted : results_lines (Some [1; 0]) 2 = Ok [(1, 0); (0, 1)].
Proof. reflexivity. Qed.
Print Assumptions C171_order_refuted.

(** ** dates of groups *)
Lemma dates_of_group index gi k : length index = length gi -> uniq (group_dates index gi k) = dates_of index gi k.
Proof.
  intros L. unfold dates_of, group_dates, rows_with. f_equal. rewrite (combine_nth_seq index gi 0%Z 0%Z) by auto.
  rewrite filter_map_comm, map_map. cbn [fst snd]. now rewrite L.
Qed.
Lemma block_len (LL : list (list Z)) (NE : forall l, In l LL -> l <> []) r : r <= length LL -> r <= length (concat (firstn r LL)).
Proof.
  revert r. induction LL as [|l M IH]; intros r Hr; cbn in Hr; [lia|]. destruct r as [|r]; [lia|]. cbn [firstn concat]. rewrite app_length.
  specialize (IH (fun x Hx => NE x (or_intror Hx)) r ltac:(lia)). pose proof (NE l (or_introl eq_refl)). destruct l; [congruence|]. cbn [length]. lia.
Qed.
Lemma block_one (LL : list (list Z)) (NE : forall l, In l LL -> l <> []) r : r <= length LL ->
  (length (concat (firstn r LL)) = r <-> forall q, q < r -> length (nth q LL []) = 1).
Proof.
  revert r. induction LL as [|l M IH]; intros r Hr; cbn in Hr.
  - assert (r = 0) as -> by lia. split; [lia|reflexivity].
  - destruct r as [|r]; [split; [lia|reflexivity]|]. cbn [firstn concat]. rewrite app_length.
    assert (NE' : forall x, In x M -> x <> []) by (intros; apply NE; now right). specialize (IH NE' r ltac:(lia)).
    pose proof (block_len M NE' r ltac:(lia)) as B.
    pose proof (NE l (or_introl eq_refl)) as Nl. assert (1 <= length l) by (destruct l; [congruence|cbn; lia]). split.
    + intros E q Hq. destruct q as [|q]; cbn [nth]; [lia|]. apply (proj1 IH); lia.
    + intros E. pose proof (E 0 ltac:(lia)) as E0. cbn in E0. assert (length (concat (firstn r M)) = r).
      { apply IH. intros q Hq. apply (E (S q)). lia. } lia.
Qed.
Section Blocks.
Variable LL : list (list Z).
Hypothesis NE : forall l, In l LL -> l <> [].
Hypothesis DJ : forall i j x, i < length LL -> j < length LL -> In x (nth i LL []) -> In x (nth j LL []) -> i = j.
Lemma nth_block r : r < length LL -> (In (nth r (concat LL) 0%Z) (nth r LL []) <-> forall q, q < r -> length (nth q LL []) = 1).
Proof.
  intros Hr. assert (E : concat LL = concat (firstn r LL) ++ concat (skipn r LL)) by (rewrite <- concat_app, firstn_skipn; reflexivity).
  assert (S : skipn r LL = nth r LL [] :: skipn (S r) LL).
  { clear -Hr. revert r Hr. induction LL as [|l M IH]; intros r Hr; cbn in Hr; [lia|]. destruct r as [|r]; [reflexivity|]. cbn [skipn nth]. rewrite IH by lia. reflexivity. }
  rewrite <- (block_one LL NE r) by lia. rewrite E. split.
  - intros I. pose proof (block_len LL NE r ltac:(lia)) as B. destruct (Nat.eq_dec (length (concat (firstn r LL))) r) as [|N]; auto. exfalso.
    rewrite app_nth1 in I by lia. assert (J : In (nth r (concat (firstn r LL)) 0%Z) (concat (firstn r LL))) by (apply nth_In; lia).
    apply in_concat in J. destruct J as (l & Hl & Hx). apply In_nth with (d := []) in Hl. destruct Hl as (q & Hq & Eq). rewrite firstn_length in Hq.
    assert (Eq' : nth q LL [] = l).
    { rewrite <- Eq. rewrite <- (firstn_skipn r LL) at 1. apply app_nth1. rewrite firstn_length. lia. }
    rewrite <- Eq' in Hx. pose proof (DJ q r _ ltac:(lia) Hr Hx I). lia.
  - intros B. rewrite app_nth2, B, Nat.sub_diag by lia. rewrite S. cbn [concat].
    assert (N : nth r LL [] <> []) by (apply NE, nth_In; auto). destruct (nth r LL []) as [|x l]; [congruence|]. cbn. now left.
Qed.
End Blocks.

(** the date at which group number r is drawn belongs to this group exactly if all groups before it have a single date *)
Theorem C171_dates : forall index gi r, length index = length gi -> date_once index gi -> r < length (uniq gi) ->
  (In (nth r (fit_index index gi) 0%Z) (dates_of index gi (nth r (uniq gi) 0%Z)) <->
   forall q, q < r -> length (dates_of index gi (nth q (uniq gi) 0%Z)) = 1).
Proof.
  intros index gi r L D Hr. rewrite fit_index_ok by auto.
  set (F := fun k => uniq (group_dates index gi k)). set (LL := map F (uniq gi)).
  assert (LLl : length LL = length (uniq gi)) by apply map_length.
  assert (N : forall q, q < length (uniq gi) -> nth q LL [] = dates_of index gi (nth q (uniq gi) 0%Z)).
  { intros q Hq. unfold LL. rewrite (nth_map' F _ _ _ 0%Z) by auto. now apply dates_of_group. }
  assert (NE : forall l, In l LL -> l <> []).
  { intros l Hl. apply in_map_iff in Hl. destruct Hl as (k & <- & Hk). apply (proj1 (in_uniq _ _)), rows_with_nonempty in Hk. destruct Hk as [i Hi].
    intros E. assert (I : In (nth i index 0%Z) (F k)) by (unfold F; apply in_uniq; unfold group_dates; apply in_map_iff; eauto). rewrite E in I. destruct I. }
  assert (DJ : forall i j x, i < length LL -> j < length LL -> In x (nth i LL []) -> In x (nth j LL []) -> i = j).
  { intros i j x Hi Hj Hx Hx'. unfold LL in Hx, Hx'. rewrite LLl in Hi, Hj. rewrite (nth_map' F _ _ _ 0%Z) in Hx by auto. rewrite (nth_map' F _ _ _ 0%Z) in Hx' by auto.
    apply (proj1 (in_uniq _ _)) in Hx, Hx'. pose proof (date_once_disjoint index gi L D _ _ _ Hx Hx') as E.
    apply (proj1 (NoDup_nth (uniq gi) 0%Z) (NoDup_uniq gi)); auto. }
  pose proof (nth_block LL NE DJ r ltac:(lia)) as Q. rewrite (N r Hr) in Q. change (concat (map F (uniq gi))) with (concat LL). rewrite Q. clear Q. split; intros H q Hq.
  - rewrite <- N by lia. now apply H.
  - rewrite N by lia. now apply H.
Qed.
Print Assumptions C171_dates.
(** fit_errors draws the residuals of each selected group at this date, and results writes its number there *)
Theorem C171_errors : forall index gi sel, length index = length gi -> (forall i, In i sel -> i < length (uniq gi)) ->
  error_dates index gi (Some sel) (length (uniq gi)) = Ok (map (fun r => (nth r (fit_index index gi) 0%Z, r)) sel) /\
  (length sel < length (uniq gi) -> results_texts index gi (Some sel) (length (uniq gi)) = Ok (map (fun r => (nth r (fit_index index gi) 0%Z, r)) sel)).
Proof.
  intros index gi sel L H. assert (B : forall i, In i sel -> i < length (fit_index index gi)).
  { intros i Hi. specialize (H i Hi). rewrite fit_index_ok by auto. set (F := fun k => uniq (group_dates index gi k)).
    pose proof (block_len (map F (uniq gi))) as Q. specialize (Q ltac:(intros l Hl; apply in_map_iff in Hl; destruct Hl as (k & <- & Hk);
      apply (proj1 (in_uniq _ _)), rows_with_nonempty in Hk; destruct Hk as [j Hj]; intros E;
      assert (I : In (nth j index 0%Z) (F k)) by (unfold F; apply in_uniq; unfold group_dates; apply in_map_iff; eauto); rewrite E in I; destruct I) (length (uniq gi))).
    rewrite map_length in Q. specialize (Q ltac:(lia)). rewrite firstn_all2 in Q by (rewrite map_length; lia). fold F. lia. }
  split.
  - unfold error_dates, selection. rewrite (mapM_all (item (fit_index index gi)) (fun r => nth r (fit_index index gi) 0%Z)) by (intros i Hi; apply item_ok; auto).
    cbn [bind]. rewrite (mapM_all (item (seq 0 (length (uniq gi)))) (fun r => r)).
    + cbn [bind]. f_equal. clear. induction sel as [|x l IH]; cbn; congruence.
    + intros i Hi. rewrite (item_ok _ i 0) by (rewrite seq_length; auto). rewrite seq_nth by auto. reflexivity.
  - intros Hs. unfold results_texts, selection. destruct (Nat.ltb_spec (length sel) (length (uniq gi))); [|lia].
    apply mapM_all. intros i Hi. rewrite (item_ok _ i 0%Z) by auto. reflexivity.
Qed.
Print Assumptions C171_errors.
(** two dates in the first group: the residuals of the second group are drawn at a date of the first one *)
Theorem C171_dates_refuted : error_dates [1; 2; 3; 4]%Z [0; 0; 1; 1]%Z None 2 = Ok [(1%Z, 0); (2%Z, 1)] /\ dates_of [1; 2; 3; 4]%Z [0; 0; 1; 1]%Z 1 = [3; 4]%Z.
Proof. split; reflexivity. Qed.
Print Assumptions C171_dates_refuted.
(** relative residuals of negative estimates (dB) are negative *)
Theorem C171_relative_refuted : forall e d, (e < 0)%Q -> ~ (e == d)%Q -> (relative_residual e d < 0)%Q.
Proof.
  intros e d He Hd. unfold relative_residual. assert (P : (0 < Qabs (e - d))%Q).
  { apply Qnot_le_lt. intros H. apply Hd. assert (Z : (Qabs (e - d) == 0)%Q) by (apply Qle_antisym; auto using Qabs_nonneg).
    pose proof (Qle_Qabs (e - d)). pose proof (Qle_Qabs (- (e - d))). rewrite Qabs_opp in *. lra. }
  setoid_replace (Qabs (e - d) / e)%Q with (- (Qabs (e - d) * / (- e)))%Q by (field; lra).
  assert (0 < Qabs (e - d) * / - e)%Q; [|lra]. apply Qmult_lt_0_compat; auto. apply Qinv_lt_0_compat. lra.
Qed.
Print Assumptions C171_relative_refuted.

(** ** plot.single_results *)
(** fit_numbers: each group with the first and last of its dates; fit_indexes never work *)
Theorem C171_single : forall index gi l, length index = length gi -> (forall i, In i l -> i < length (uniq gi)) ->
  single_results index gi (Some l) None = Ok (map (fun m => let dates := group_dates index gi (nth m (uniq gi) 0%Z) in (m, (nth 0 dates 0%Z, nth 0 (rev dates) 0%Z))) l).
Proof.
  intros index gi l L H. unfold single_results, single_numbers. cbn [bind]. apply mapM_all. intros m Hm. specialize (H m Hm).
  assert (E : grouped gi index = map (group_dates index gi) (uniq gi)) by (rewrite (grouped_rows gi index 0%Z L); unfold rowsets; now rewrite map_map).
  rewrite E, (item_ok _ m []) by now rewrite map_length. cbn [bind]. rewrite (nth_map' (group_dates index gi) _ _ _ 0%Z) by auto.
  assert (P : 0 < length (group_dates index gi (nth m (uniq gi) 0%Z))).
  { assert (I : In (nth m (uniq gi) 0%Z) gi) by (apply in_uniq, nth_In; auto). apply rows_with_nonempty in I. destruct I as [i Hi]. unfold group_dates. rewrite map_length.
    destruct (rows_with gi (nth m (uniq gi) 0%Z)); [destruct Hi|cbn; lia]. }
  rewrite !(item_ok _ 0 0%Z) by (rewrite ?rev_length; auto). reflexivity.
Qed.
Print Assumptions C171_single.
Theorem C171_indexes_refuted : forall index gi l n, single_results index gi n (Some l) = Err (match n with None => AttributeError | Some _ => AssertionError end).
Proof. intros index gi l [n|]; reflexivity. Qed.
Print Assumptions C171_indexes_refuted.
(** the default is the second group: an IndexError if there is only one *)
Theorem C171_default_refuted : forall index gi, length index = length gi -> length (uniq gi) = 1 -> single_results index gi None None = Err IndexError.
Proof.
  intros index gi L H. unfold single_results, single_numbers. cbn [bind mapM].
  assert (E : grouped gi index = map (group_dates index gi) (uniq gi)) by (rewrite (grouped_rows gi index 0%Z L); unfold rowsets; now rewrite map_map).
  rewrite E, item_err by (rewrite map_length; lia). reflexivity.
Qed.
Print Assumptions C171_default_refuted.
Example C171_example :
  results_lines (Some [0; 1]) 3 = Ok [(0, 0); (1, 1)] /\ results_lines (Some [2]) 3 = Err IndexError /\
  error_dates [1; 2; 3]%Z [0; 1; 0]%Z None 2 = Ok [(1%Z, 0); (3%Z, 1)] /\
  results_texts [1; 2; 3]%Z [0; 1; 2]%Z (Some [2]) 3 = Ok [(3%Z, 2)] /\
  single_results [1; 2; 3]%Z [0; 1; 0]%Z (Some [0]) None = Ok [(0, (1, 3)%Z)] /\ single_results [1; 2]%Z [0; 0]%Z None None = Err IndexError.
Proof. repeat split; reflexivity. Qed.
