(** C166-C168: the plots of a fit combine each measurement with its own estimate, date and group. *)
From Coq Require Import ZArith QArith Qabs Bool Lia Lqa Permutation Sorted Arith List.
From Verif Require Import Base Base_Proofs GF_Model GF_Proofs Fit_Model Fit_Spec Fit_Proofs Fit2_Proofs Fit3_Proofs Fit4_Proofs Aln_Model Aln_Spec Aln_Proofs.
Import ListNotations.
Local Open Scope nat_scope.
Local Open Scope list_scope.

(** ** C166: scatter and fit_timeseries *)
(** every measurement is drawn with its own estimate, exactly if equal group-numbers are adjacent or no date occurs twice *)
Theorem C166_scatter : forall index gi, gi <> [] -> length index = length gi ->
  (scatter index gi = Ok (map (fun i => (i, Some i)) (seq 0 (length index))) <-> contiguous gi \/ NoDup index).
Proof.
  intros index gi H L. unfold scatter. rewrite (calc_rows_ok index gi H L). cbn [bind]. rewrite (calc_index_ok index gi L). unfold align.
  rewrite <- order_seq_contiguous, <- L, <- (combine_map_r Some).
  destruct (list_eq_dec Z.eq_dec index _) as [E|N].
  - cbn [bind]. split.
    + intros Q. injection Q as Q. left. apply combine_inj_r in Q; [|rewrite map_length, seq_length, order_length; auto|now rewrite map_length].
      now apply map_Some_inj in Q.
    + intros [->|Hn]; [reflexivity|]. rewrite (nth_inj_NoDup index (processing_order gi)); auto; [|rewrite order_length; auto].
      intros i Hi. apply order_lt in Hi. lia.
  - destruct (is_unique _) eqn:U.
    + apply is_unique_iff in U. cbn [bind]. split; [intros _; right; now apply NoDup_map_order in U|]. intros _. f_equal. f_equal.
      transitivity (map (fun t => at_label t (combine (map (fun i => nth i index 0%Z) (processing_order gi)) (processing_order gi))) (map (fun i => nth i index 0%Z) (seq 0 (length index)))).
      { now rewrite map_nth_seq. }
      rewrite map_map. apply map_ext_in. intros i Hi. apply (at_label_map (fun i => nth i index 0%Z)); auto. apply (Permutation_in _ (Permutation_sym (processing_order_perm gi))). now rewrite <- L.
    + cbn [bind]. split; [discriminate|]. intros [Q|Q].
      * exfalso. apply N. rewrite Q. symmetry. apply map_nth_seq.
      * exfalso. apply Bool.not_true_iff_false in U. apply U, is_unique_iff. now apply NoDup_map_order.
Qed.
Print Assumptions C166_scatter.
(** the time-series combines the estimates with their own incidence-angles, and with their own measurements under the same condition *)
Theorem C166_timeseries : forall index gi, gi <> [] -> length index = length gi ->
  (timeseries index gi = Ok (map (fun i => (i, (i, Some i))) (processing_order gi)) <-> contiguous gi \/ NoDup index).
Proof.
  intros index gi H L. unfold timeseries. rewrite (calc_rows_ok index gi H L). cbn [bind].
  pose proof (calc_rows_ok index gi H L) as CR. unfold calc_rows in CR.
  destruct (get_data gi (seq 0 (length gi))) as [a|]; [|discriminate CR]. cbn [bind] in CR |- *.
  destruct (get_mask gi index) as [m|]; [|discriminate CR]. cbn [bind] in CR |- *. injection CR as CR. rewrite CR. clear a m CR.
  rewrite (calc_index_ok index gi L). unfold align. rewrite <- order_seq_contiguous, <- L.
  assert (T : map (fun i => (i, (i, Some i))) (processing_order gi) = combine (processing_order gi) (combine (processing_order gi) (map Some (processing_order gi)))).
  { rewrite combine_map_r, combine_map_r. reflexivity. }
  rewrite T. clear T.
  assert (LL : forall o : list (option nat), length o = length index -> length (combine (processing_order gi) o) = length (processing_order gi)).
  { intros o Ho. rewrite combine_length, order_length. lia. }
  destruct (list_eq_dec Z.eq_dec _ index) as [E|N].
  - cbn [bind]. split.
    + intros Q. injection Q as Q. left.
      apply combine_inj_r in Q; [|apply LL; now rewrite map_length, seq_length|apply LL; rewrite map_length, order_length; auto].
      apply combine_inj_r in Q; [|rewrite map_length, seq_length, order_length; auto|now rewrite map_length].
      symmetry. now apply map_Some_inj in Q.
    + intros [->|Hn]; [reflexivity|]. rewrite (nth_inj_NoDup index (processing_order gi)); auto; [|rewrite order_length; auto].
      intros i Hi. apply order_lt in Hi. lia.
  - destruct (is_unique index) eqn:U.
    + apply is_unique_iff in U. cbn [bind]. split; [auto|]. intros _. f_equal. f_equal. f_equal.
      rewrite map_map. apply map_ext_in. intros i Hi. apply order_lt in Hi.
      pose proof (at_label_map (fun i => nth i index 0%Z) (seq 0 (length index)) i) as Q. rewrite map_nth_seq in Q. apply Q; auto. apply in_seq. lia.
    + cbn [bind]. split; [discriminate|]. intros [Q|Q].
      * exfalso. apply N. rewrite Q. apply map_nth_seq.
      * exfalso. apply Bool.not_true_iff_false in U. apply U. now apply is_unique_iff.
Qed.
Print Assumptions C166_timeseries.
(** dates that occur twice and groups that change the order of the dates: both plots raise an error *)
Theorem C166_error_refuted : forall index gi, gi <> [] -> length index = length gi -> ~ NoDup index ->
  map (fun i => nth i index 0%Z) (processing_order gi) <> index ->
  scatter index gi = Err ValueError /\ timeseries index gi = Err ValueError.
Proof.
  intros index gi H L D N.
  assert (U1 : is_unique index = false) by (apply Bool.not_true_iff_false; intros U; apply D; now apply is_unique_iff).
  assert (U2 : is_unique (map (fun i => nth i index 0%Z) (processing_order gi)) = false).
  { apply Bool.not_true_iff_false; intros U; apply D. apply is_unique_iff in U. now apply NoDup_map_order in U. }
  split.
  - unfold scatter. rewrite (calc_rows_ok index gi H L). cbn [bind]. rewrite (calc_index_ok index gi L). unfold align.
    destruct (list_eq_dec Z.eq_dec index _) as [E|_]; [congruence|]. now rewrite U2.
  - unfold timeseries. rewrite (calc_rows_ok index gi H L). cbn [bind].
    pose proof (calc_rows_ok index gi H L) as CR. unfold calc_rows in CR.
    destruct (get_data gi (seq 0 (length gi))) as [a|]; [|discriminate CR]. cbn [bind] in CR |- *.
    destruct (get_mask gi index) as [m|]; [|discriminate CR]. cbn [bind] in CR |- *.
    rewrite (calc_index_ok index gi L). unfold align. destruct (list_eq_dec Z.eq_dec _ index) as [E|_]; [congruence|]. now rewrite U1.
Qed.
Print Assumptions C166_error_refuted.
(** groups that only interchange measurements of the same date: the plots succeed, and some measurement is drawn with the estimate of another one *)
Theorem C166_mixed_refuted : forall index gi, gi <> [] -> length index = length gi -> ~ contiguous gi ->
  map (fun i => nth i index 0%Z) (processing_order gi) = index ->
  exists l i j, scatter index gi = Ok l /\ In (i, Some j) l /\ i <> j.
Proof.
  intros index gi H L C E. unfold scatter. rewrite (calc_rows_ok index gi H L). cbn [bind]. rewrite (calc_index_ok index gi L). unfold align.
  rewrite E. destruct (list_eq_dec Z.eq_dec index index) as [_|N]; [|congruence]. cbn [bind].
  eexists. assert (X : exists p, p < length gi /\ nth p (processing_order gi) 0 <> p).
  { destruct (List.Forall_dec (fun p => nth p (processing_order gi) 0 = p) (fun p => Nat.eq_dec _ _) (seq 0 (length gi))) as [F|F].
    - exfalso. apply C, order_seq_contiguous. rewrite Forall_forall in F.
      apply nth_ext with (d := 0) (d' := 0); [now rewrite order_length, seq_length|]. intros p Hp. rewrite order_length in Hp.
      rewrite seq_nth by auto. apply F, in_seq. lia.
    - apply neg_Forall_Exists_neg in F; [|intros; apply Nat.eq_dec]. apply Exists_exists in F. destruct F as (p & Hp & F).
      exists p. apply in_seq in Hp. split; [lia|auto]. }
  destruct X as (p & Hp & X). exists p, (nth p (processing_order gi) 0). split; [reflexivity|]. split; [|auto].
  replace (p, Some (nth p (processing_order gi) 0)) with (nth p (combine (seq 0 (length index)) (map Some (processing_order gi))) (0, Some 0)).
  - apply nth_In. rewrite combine_length, seq_length, map_length, order_length. lia.
  - rewrite combine_nth by (rewrite seq_length, map_length, order_length; auto). rewrite seq_nth by lia. now rewrite map_nth.
Qed.
Print Assumptions C166_mixed_refuted.
Example C166_example :
  scatter [1; 2; 3]%Z [0; 1; 0]%Z = Ok [(0, Some 0); (1, Some 1); (2, Some 2)] /\
  timeseries [1; 2; 3]%Z [0; 1; 0]%Z = Ok [(0, (0, Some 0)); (2, (2, Some 2)); (1, (1, Some 1))] /\
  scatter [1; 1; 2; 2]%Z [0; 0; 1; 1]%Z = Ok [(0, Some 0); (1, Some 1); (2, Some 2); (3, Some 3)] /\
  scatter [1; 1; 2; 2]%Z [0; 1; 0; 1]%Z = Err ValueError /\
  scatter [1; 1; 1]%Z [0; 1; 0]%Z = Ok [(0, Some 0); (1, Some 2); (2, Some 1)].
Proof. repeat split; reflexivity. Qed.

(** ** C167: intermediate_residuals *)
Lemma residual_groups_ok index gi : gi <> [] -> length index = length gi ->
  residual_groups index gi = Ok (combine (uniq gi) (map (fun k => map (fun p => nth p (processing_order gi) 0) (rows_with gi k)) (sort_z (uniq gi)))).
Proof.
  intros H L. unfold residual_groups. rewrite (calc_rows_ok index gi H L). cbn [bind]. rewrite groups_of_rows by apply order_length.
  now rewrite group_keys.
Qed.
Lemma sort_length l : length (sort_z l) = length l.
Proof. apply Permutation_length, sort_perm. Qed.
Lemma map_nth_order gi l k : contiguous gi -> length l = length gi -> map (fun p => nth p (processing_order gi) 0) (rows_with l k) = rows_with l k.
Proof.
  intros C L. rewrite (processing_order_contiguous gi C). rewrite <- map_id. apply map_ext_in. intros p Hp. apply in_rows_with in Hp.
  rewrite seq_nth; lia.
Qed.
(** groups: the columns have the label of their own group exactly if the numbers of the groups do not decrease in the dataset *)
Theorem C167_groups : forall index gi, gi <> [] -> length index = length gi ->
  ((exists cols, residual_groups index gi = Ok cols /\ rightly_labelled gi cols) <-> sorted gi).
Proof.
  intros index gi H L. rewrite (residual_groups_ok index gi H L). split.
  - intros (cols & E & P & R). injection E as <-.
    assert (Rj : forall j, j < length (uniq gi) -> forall p, p < length gi -> nth p gi 0%Z = nth j (sort_z (uniq gi)) 0%Z ->
                 nth (nth p (processing_order gi) 0) gi 0%Z = nth j (uniq gi) 0%Z).
    { intros j Hj p Hp E.
      pose proof (R (nth j (uniq gi) 0%Z) (map (fun p => nth p (processing_order gi) 0) (rows_with gi (nth j (sort_z (uniq gi)) 0%Z)))) as Q.
      assert (In (nth p (processing_order gi) 0) (rows_with gi (nth j (uniq gi) 0%Z))) as I; [|apply in_rows_with in I; tauto].
      eapply Permutation_in; [apply Q|].
      - set (F := fun k => map (fun p0 => nth p0 (processing_order gi) 0) (rows_with gi k)).
        change (In (nth j (uniq gi) 0%Z, F (nth j (sort_z (uniq gi)) 0%Z)) (combine (uniq gi) (map F (sort_z (uniq gi))))).
        replace (nth j (uniq gi) 0%Z, F (nth j (sort_z (uniq gi)) 0%Z)) with (nth j (combine (uniq gi) (map F (sort_z (uniq gi)))) (0%Z, F 0%Z)).
        + apply nth_In. rewrite combine_length, map_length, sort_length. lia.
        + rewrite combine_nth by now rewrite map_length, sort_length. now rewrite map_nth.
      - apply in_map_iff. exists p. split; auto. apply in_rows_with. auto. }
    assert (Jp : forall p, p < length gi -> exists j, j < length (uniq gi) /\ nth p gi 0%Z = nth j (sort_z (uniq gi)) 0%Z).
    { intros p Hp. assert (I : In (nth p gi 0%Z) (sort_z (uniq gi))).
      { apply (Permutation_in _ (Permutation_sym (sort_perm (uniq gi)))), in_uniq, nth_In. auto. }
      apply In_nth with (d := 0%Z) in I. destruct I as (j & Hj & E). rewrite sort_length in Hj. exists j. auto. }
    assert (C : contiguous gi).
    { pose proof (order_contiguous gi) as C. intros a b c Habc Hc E.
      destruct (Jp a ltac:(lia)) as (j & Hj & Ej). destruct (Jp b ltac:(lia)) as (j' & Hj' & Ej').
      pose proof (C a b c Habc) as Q. rewrite map_length, order_length in Q. specialize (Q Hc).
      rewrite !(nth_map' _ (processing_order gi) _ _ 0) in Q by (rewrite order_length; lia).
      rewrite (Rj j Hj a), (Rj j Hj c), (Rj j' Hj' b) in Q by (lia || congruence). specialize (Q eq_refl).
      assert (j' = j) as -> by (apply (proj1 (NoDup_nth (uniq gi) 0%Z) (NoDup_uniq gi)); auto). congruence. }
    assert (S : sorted (uniq gi)).
    { assert (E : uniq gi = sort_z (uniq gi)); [|rewrite E; apply sort_sorted].
      apply nth_ext with (d := 0%Z) (d' := 0%Z); [now rewrite sort_length|]. intros j Hj.
      assert (I : In (nth j (sort_z (uniq gi)) 0%Z) gi).
      { apply in_uniq, (Permutation_in _ (sort_perm (uniq gi))), nth_In. now rewrite sort_length. }
      apply In_nth with (d := 0%Z) in I. destruct I as (p & Hp & E).
      rewrite <- (Rj j Hj p Hp E). rewrite (processing_order_contiguous gi C), seq_nth by auto. exact E. }
    apply sorted_of_nth. intros i j Hij Hj. pose proof (contiguous_rank_mono gi i j C Hij Hj) as M.
    assert (Ii : In (nth i gi 0%Z) (uniq gi)) by (apply in_uniq, nth_In; lia). assert (Ij : In (nth j gi 0%Z) (uniq gi)) by (apply in_uniq, nth_In; lia).
    unfold rank in M. destruct (number_nth _ _ Ii) as [A A'], (number_nth _ _ Ij) as [B B'].
    rewrite <- A, <- B. apply sorted_nth; auto.
  - intros S. pose proof (sorted_contiguous gi S) as C. eexists. split; [reflexivity|].
    rewrite (sort_id (uniq gi)) by now apply sorted_uniq. rewrite combine_map_r. split; [rewrite map_map, map_id; reflexivity|].
    intros k rows I. apply in_map_iff in I. destruct I as (k' & E & _). injection E as -> <-. now rewrite map_nth_order.
Qed.
Print Assumptions C167_groups.

Lemma residual_dates_ok index gi : gi <> [] -> length index = length gi ->
  residual_dates index gi = Ok (combine (fit_index index gi) (map (fun t => map (fun p => nth p (processing_order gi) 0) (rows_with index t)) (sort_z (uniq index)))).
Proof. intros H L. unfold residual_dates. rewrite (calc_rows_ok index gi H L). cbn [bind]. rewrite groups_of_rows by (rewrite order_length; auto). reflexivity. Qed.
(** dates: the columns have the label of their own date if no date occurs twice *)
Theorem C167_dates : forall index gi, gi <> [] -> length index = length gi -> sorted index -> NoDup index \/ (contiguous gi /\ date_once index gi) ->
  exists cols, residual_dates index gi = Ok cols /\ rightly_labelled index cols.
Proof.
  intros index gi H L S [D|[C D]]; rewrite (residual_dates_ok index gi H L); eexists; (split; [reflexivity|]).
  - assert (O : date_once index gi).
    { intros i j Hi Hj E. apply (proj1 (NoDup_nth index 0%Z) D) in E; auto. congruence. }
    assert (R1 : forall p, p < length index -> rows_with index (nth p index 0%Z) = [p]).
    { intros p Hp. unfold rows_with. rewrite (filter_ext_in _ (fun i => Nat.eqb i p)).
      - clear -Hp. assert (G : forall n s, s <= p < s + n -> filter (fun i => Nat.eqb i p) (seq s n) = [p]).
        { induction n as [|n IH]; intros s Hs; [lia|]. cbn [seq filter]. destruct (Nat.eqb_spec s p) as [->|N]; [|apply IH; lia].
          f_equal. clear IH Hs. assert (K : forall n s, p < s -> filter (fun i => Nat.eqb i p) (seq s n) = []).
          { clear. induction n as [|n IH]; intros s Hs; cbn; auto. destruct (Nat.eqb_spec s p); [lia|]. apply IH. lia. }
          apply K. lia. }
        apply G. lia.
      - intros i Hi. apply in_seq in Hi. destruct (Z.eqb_spec (nth i index 0%Z) (nth p index 0%Z)) as [E|N], (Nat.eqb_spec i p) as [E'|N']; auto; exfalso.
        + apply N', (proj1 (NoDup_nth index 0%Z) D); auto; lia.
        + congruence. }
    rewrite (uniq_id index D), (sort_id index S), fit_index_uniq by auto.
    rewrite (uniq_id (map _ _)) by now apply NoDup_map_order.
    assert (E : map (fun t => map (fun p => nth p (processing_order gi) 0) (rows_with index t)) index = map (fun i => [i]) (processing_order gi)).
    { apply nth_ext with (d := []) (d' := []); [rewrite !map_length, order_length; auto|]. intros p Hp. rewrite map_length in Hp.
      rewrite (nth_map' _ index _ _ 0%Z), (nth_map' _ (processing_order gi) _ _ 0) by (rewrite ?order_length; lia).
      rewrite R1 by auto. reflexivity. }
    rewrite E. assert (E2 : combine (map (fun i => nth i index 0%Z) (processing_order gi)) (map (fun i => [i]) (processing_order gi)) = map (fun i => (nth i index 0%Z, [i])) (processing_order gi)).
    { generalize (processing_order gi). intros l. induction l as [|x l IH]; cbn; [reflexivity|]. f_equal. exact IH. }
    rewrite E2. split.
    + rewrite map_map. cbn [fst]. rewrite (uniq_id index D), processing_order_perm, <- L, map_nth_seq. reflexivity.
    + intros k rows I. apply in_map_iff in I. destruct I as (i & Q & Hi). injection Q as <- <-. apply order_lt in Hi. rewrite R1 by lia. reflexivity.
  - rewrite fit_index_uniq by auto. rewrite (processing_order_contiguous gi C) at 1. rewrite <- L, map_nth_seq.
    rewrite (sort_id (uniq index)) by now apply sorted_uniq. rewrite combine_map_r. split; [rewrite map_map, map_id; reflexivity|].
    intros k rows I. apply in_map_iff in I. destruct I as (k' & E & _). injection E as -> <-. now rewrite map_nth_order.
Qed.
Print Assumptions C167_dates.
(** two measurements of each date in two groups: the residuals are labelled with wrong dates *)
Theorem C167_dates_refuted : exists index gi cols, gi <> [] /\ length index = length gi /\ sorted index /\
  residual_dates index gi = Ok cols /\ forall k rows, In (k, rows) cols -> ~ Permutation rows (rows_with index k).
Proof.
  exists [1; 1; 2; 2]%Z, [0; 1; 0; 1]%Z. eexists. split; [discriminate|]. split; [reflexivity|]. split; [repeat constructor; lia|]. split; [reflexivity|].
  assert (N : forall a b : list nat, (forall x, In x a -> In x b) -> forall c d, d = b -> c = a -> Permutation c d -> forall x, In x c -> In x d) by (intros; subst; auto).
  intros k rows I P. cbn in I.
  destruct I as [E|[E|[]]]; injection E as <- <-.
  - pose proof (Permutation_in 2 P) as Q. cbn in Q. intuition discriminate.
  - pose proof (Permutation_in 1 P) as Q. cbn in Q. intuition discriminate.
Qed.
Print Assumptions C167_dates_refuted.
(** the displayed value of a group is the absolute value of the mean residual: never larger than the mean absolute residual, ... *)
Lemma sum_abs l : (Qabs (fold_right Qplus 0 l) <= fold_right Qplus 0 (map Qabs l))%Q.
Proof.
  induction l as [|x l IH]; cbn [fold_right map]; [apply Qle_refl|]. eapply Qle_trans; [apply Qabs_triangle|].
  apply Qplus_le_compat; [apply Qle_refl|exact IH].
Qed.
Lemma shown_mean l : (shown_residual l == Qabs (meanq l))%Q.
Proof.
  unfold shown_residual, meanq. apply Qabs_wd. apply Qmult_comp; [|reflexivity].
  assert (G : forall a : Q, (fold_left Qplus l a == a + fold_right Qplus 0 l)%Q); [|rewrite G; ring].
  induction l as [|x l IH]; intros a; cbn [fold_left fold_right]; [ring|]. rewrite IH. ring.
Qed.
Theorem C167_abs : forall l, l <> [] -> (shown_residual l <= meanq (map Qabs l))%Q.
Proof.
  intros l H. rewrite shown_mean. unfold meanq. rewrite map_length. set (n := inject_Z (Z.of_nat (length l))).
  assert (P : (0 < n)%Q). { unfold n. change 0%Q with (inject_Z 0). rewrite <- Zlt_Qlt. destruct l; [congruence|]. cbn [length]. lia. }
  unfold Qdiv. rewrite Qabs_Qmult, (Qabs_pos (/ n)) by (apply Qlt_le_weak, Qinv_lt_0_compat, P).
  apply Qmult_le_compat_r; [apply sum_abs|]. apply Qlt_le_weak, Qinv_lt_0_compat, P.
Qed.
Print Assumptions C167_abs.
(** ... and residuals that cancel are shown as a perfect fit *)
Theorem C167_cancel_refuted : forall a, (0 < a)%Q -> (shown_residual [a; - a] == 0)%Q /\ (meanq (map Qabs [a; - a]) == a)%Q.
Proof.
  intros a H. split.
  - rewrite shown_mean. unfold meanq. cbn [fold_right length]. setoid_replace ((a + (- a + 0)) / inject_Z (Z.of_nat 2))%Q with 0%Q; [reflexivity|]. change (inject_Z (Z.of_nat 2)) with 2%Q. field.
  - unfold meanq. cbn [map fold_right length]. rewrite Qabs_opp, (Qabs_pos a) by now apply Qlt_le_weak. change (inject_Z (Z.of_nat 2)) with 2%Q. field.
Qed.
Print Assumptions C167_cancel_refuted.
Example C167_example :
  residual_groups [1; 2; 3; 4]%Z [0; 0; 1; 1]%Z = Ok [(0%Z, [0; 1]); (1%Z, [2; 3])] /\
  residual_groups [1; 2; 3; 4]%Z [5; 5; 1; 1]%Z = Ok [(5%Z, [2; 3]); (1%Z, [0; 1])] /\
  residual_groups [1; 2; 3; 4]%Z [0; 1; 0; 1]%Z = Ok [(0%Z, [0; 1]); (1%Z, [2; 3])] /\
  residual_dates [1; 2; 3]%Z [0; 1; 0]%Z = Ok [(1%Z, [0]); (3%Z, [2]); (2%Z, [1])] /\
  residual_dates [1; 1; 2; 2]%Z [0; 1; 0; 1]%Z = Ok [(1%Z, [0; 2]); (2%Z, [1; 3])].
Proof. repeat split; reflexivity. Qed.

(** ** C168: printsig0analysis *)
Lemma mapM_res {A B} (f : A -> res B) (g : A -> B) l : (forall x, In x l -> f x = Ok (g x)) -> mapM f l = Ok (map g l).
Proof. induction l as [|x l IH]; cbn; intros H; [reflexivity|]. rewrite (H x (or_introl eq_refl)). cbn. rewrite IH by auto. reflexivity. Qed.
Lemma take_ok {A} (l : list A) p d : (forall i, In i p -> i < length l) -> take l p = Ok (map (fun i => nth i l d) p).
Proof.
  intros H. unfold take. apply mapM_res. intros i Hi. rewrite (nth_error_nth' l d) by auto. reflexivity.
Qed.
Lemma take_err {A} (l : list A) p i : In i p -> length l <= i -> take l p = Err IndexError.
Proof.
  intros Hi Hl. unfold take. induction p as [|j p IH]; [destruct Hi|]. cbn [mapM].
  destruct (nth_error l j) eqn:E; [|reflexivity]. cbn [bind]. destruct Hi as [->|Hi]; [apply nth_error_None in Hl; congruence|].
  rewrite IH by auto. reflexivity.
Qed.
Lemma combine3 {A B C D} (f : A -> B) (g : A -> C) (h : A -> D) l : combine (map f l) (combine (map g l) (map h l)) = map (fun x => (f x, (g x, h x))) l.
Proof. induction l as [|x l IH]; cbn; congruence. Qed.

(** groups: whatever the order of the positions, each position shows the label, the measurements and the calculation of one group, and every group is shown once *)
Theorem C168_groups : forall index gi p, length index = length gi -> Permutation p (seq 0 (length (uniq gi))) ->
  exists l, analysis_groups index gi p true = Ok l /\ Permutation (map fst l) (uniq gi) /\
    forall k rows f, In (k, (rows, f)) l -> rows = rows_with gi k /\ f = k.
Proof.
  intros index gi p L P. unfold analysis_groups. rewrite group_keys by auto. rewrite (grouped_rows gi (seq 0 (length gi)) 0) by now rewrite seq_length.
  assert (E : map (map (fun i => nth i (seq 0 (length gi)) 0)) (rowsets gi) = map (rows_with gi) (uniq gi)).
  { unfold rowsets. rewrite map_map. apply map_ext. intros k. fold (rows_with gi k). rewrite <- map_id. apply map_ext_in. intros i Hi.
    apply in_rows_with in Hi. rewrite seq_nth; lia. }
  rewrite E. assert (B : forall i, In i p -> i < length (uniq gi)). { intros i Hi. apply (Permutation_in _ P), in_seq in Hi. lia. }
  rewrite (take_ok _ p (rows_with gi 0%Z)) by now rewrite map_length. cbn [bind]. rewrite (take_ok (uniq gi) p 0%Z B). cbn [bind].
  rewrite combine3. eexists. split; [reflexivity|]. split.
  - rewrite map_map. cbn [fst]. rewrite P, map_nth_seq. reflexivity.
  - intros k rows f I. apply in_map_iff in I. destruct I as (i & Q & Hi). injection Q as <- <- <-. split; auto. apply map_nth.
Qed.
Print Assumptions C168_groups.

Lemma sort_unique l m : Permutation l m -> sort_z l = sort_z m.
Proof. intros P. apply sorted_perm_eq; auto using sort_sorted. rewrite !sort_perm. exact P. Qed.
Lemma uniq_perm l m : Permutation l m -> Permutation (uniq l) (uniq m).
Proof.
  intros P. apply NoDup_Permutation; auto using NoDup_uniq. intros x. rewrite !in_uniq. split; intros H.
  - apply (Permutation_in _ P H). - apply (Permutation_in _ (Permutation_sym P) H).
Qed.
Lemma analysis_ok index gi p : gi <> [] -> length index = length gi -> date_once index gi -> sorts (fit_index index gi) p ->
  analysis_dataset index gi p true = Ok (map (fun i => (nth i (fit_index index gi) 0%Z,
    (map (fun p => nth p (processing_order gi) 0) (rows_with (map (fun i => nth i index 0%Z) (processing_order gi)) (nth i (sort_z (uniq index)) 0%Z)), nth i (sort_z (uniq index)) 0%Z))) p).
Proof.
  intros H L D [P S]. unfold analysis_dataset. rewrite (calc_rows_ok index gi H L). cbn [bind]. rewrite (calc_index_ok index gi L), fromkeys_uniq.
  rewrite groups_of_rows by now rewrite map_length.
  set (o := processing_order gi). set (ci := map (fun i => nth i index 0%Z) o).
  assert (SE : sort_z (uniq ci) = sort_z (uniq index)).
  { apply sort_unique, uniq_perm. unfold ci, o. rewrite processing_order_perm, <- L, map_nth_seq. reflexivity. }
  rewrite SE. pose proof (Permutation_length (fit_index_perm index gi L D)) as LF.
  assert (B : forall i, In i p -> i < length (uniq index)). { intros i Hi. apply (Permutation_in _ P), in_seq in Hi. lia. }
  set (F := fun k => map (fun p0 => nth p0 o 0) (rows_with ci k)).
  rewrite (take_ok _ p (F 0%Z)) by (intros i Hi; rewrite map_length, sort_length; auto). cbn [bind].
  rewrite (take_ok (fit_index index gi) p 0%Z) by (intros i Hi; rewrite LF; auto). cbn [bind].
  rewrite (take_ok (sort_z (uniq index)) p 0%Z) by (intros i Hi; rewrite sort_length; auto). cbn [bind].
  rewrite combine3. f_equal. apply map_ext. intros i. now rewrite (map_nth F).
Qed.
(** dates: if the dates of the fit are in ascending order and each belongs to one group, each position shows the date, measurements and calculation that belong together *)
Theorem C168_dates : forall index gi p, gi <> [] -> length index = length gi -> date_once index gi -> sorted (fit_index index gi) ->
  sorts (fit_index index gi) p ->
  exists l, analysis_dataset index gi p true = Ok l /\ Permutation (map fst l) (uniq index) /\
    forall t rows f, In (t, (rows, f)) l -> Permutation rows (rows_with index t) /\ f = t.
Proof.
  intros index gi p H L D S A. rewrite (analysis_ok index gi p H L D A). destruct A as [P _].
  assert (E : fit_index index gi = sort_z (uniq index)).
  { apply sorted_perm_eq; auto using sort_sorted. rewrite sort_perm. now apply fit_index_perm. }
  eexists. split; [reflexivity|]. split.
  - rewrite map_map. cbn [fst]. rewrite P, map_nth_seq. now apply fit_index_perm.
  - intros t rows f I. apply in_map_iff in I. destruct I as (i & Q & Hi). injection Q as <- <- <-. rewrite E. split; auto. now apply order_rows.
Qed.
Print Assumptions C168_dates.
(** this is the case for a sorted dataset whose groups are adjacent *)
Theorem C168_sorted : forall index gi, length index = length gi -> date_once index gi -> sorted index -> contiguous gi -> sorted (fit_index index gi).
Proof.
  intros index gi L D S C. rewrite fit_index_uniq, (processing_order_contiguous gi C), <- L, map_nth_seq by auto. now apply sorted_uniq.
Qed.
Print Assumptions C168_sorted.
(** dates in another order: some position shows measurements and calculation of a date that is not its label *)
Theorem C168_unsorted_refuted : forall index gi p, gi <> [] -> length index = length gi -> date_once index gi -> ~ sorted (fit_index index gi) ->
  sorts (fit_index index gi) p ->
  exists l t rows f, analysis_dataset index gi p true = Ok l /\ In (t, (rows, f)) l /\ f <> t /\ (forall i, In i rows -> nth i index 0%Z <> t) /\ rows <> [].
Proof.
  intros index gi p H L D S A. pose proof (fit_index_perm index gi L D) as FP. pose proof (Permutation_length FP) as LF.
  assert (X : exists q, In q p /\ nth q (fit_index index gi) 0%Z <> nth q (sort_z (uniq index)) 0%Z).
  { destruct (List.Forall_dec (fun q => nth q (fit_index index gi) 0%Z = nth q (sort_z (uniq index)) 0%Z) (fun q => Z.eq_dec _ _) p) as [F|F].
    - exfalso. apply S. rewrite Forall_forall in F. replace (fit_index index gi) with (sort_z (uniq index)); [apply sort_sorted|].
      apply nth_ext with (d := 0%Z) (d' := 0%Z); [rewrite sort_length; auto|]. intros q Hq. rewrite sort_length in Hq. symmetry. apply F.
      apply (Permutation_in _ (Permutation_sym (proj1 A))), in_seq. lia.
    - apply neg_Forall_Exists_neg in F; [|intros; apply Z.eq_dec]. now apply Exists_exists in F. }
  destruct X as (q & Hq & X). rewrite (analysis_ok index gi p H L D A).
  eexists. exists (nth q (fit_index index gi) 0%Z). do 2 eexists. split; [reflexivity|]. split; [apply in_map_iff; exists q; split; [reflexivity|exact Hq]|].
  split; [congruence|].
  pose proof (order_rows index gi (nth q (sort_z (uniq index)) 0%Z) L) as OR. split.
  - intros i Hi. apply (Permutation_in _ OR), in_rows_with in Hi. destruct Hi as [_ ->]. congruence.
  - intros N. rewrite N in OR. apply Permutation_nil in OR.
    assert (I : In (nth q (sort_z (uniq index)) 0%Z) index).
    { apply in_uniq, (Permutation_in _ (sort_perm _)), nth_In. rewrite sort_length, <- LF. apply (Permutation_in _ (proj1 A)), in_seq in Hq. lia. }
    apply rows_with_nonempty in I. destruct I as [i Hi]. rewrite OR in Hi. destruct Hi.
Qed.
Print Assumptions C168_unsorted_refuted.
(** a date in two groups: no figure *)
Theorem C168_twice_refuted : forall index gi p b, gi <> [] -> length index = length gi -> ~ date_once index gi -> sorts (fit_index index gi) p ->
  analysis_dataset index gi p b = Err IndexError.
Proof.
  intros index gi p b H L D [P S]. unfold analysis_dataset. rewrite (calc_rows_ok index gi H L). cbn [bind]. rewrite (calc_index_ok index gi L).
  rewrite groups_of_rows by now rewrite map_length. pose proof (fit_index_long index gi L D) as LF.
  rewrite (take_err _ p (length (uniq index))); [reflexivity| |].
  - apply (Permutation_in _ (Permutation_sym P)), in_seq. lia.
  - rewrite map_length, sort_length. apply Nat.eq_le_incl, Permutation_length, uniq_perm. rewrite processing_order_perm, <- L, map_nth_seq. reflexivity.
Qed.
Print Assumptions C168_twice_refuted.
(** printfullt_0 = False never gives a figure *)
Theorem C168_full_refuted : forall index gi p l, analysis_groups index gi p false <> Ok l /\ analysis_dataset index gi p false <> Ok l.
Proof.
  intros index gi p l. unfold analysis_groups, analysis_dataset. split.
  - destruct (take (grouped _ _) p); [|discriminate]. cbn [bind]. destruct (take _ p); discriminate.
  - destruct (calc_rows index gi); [|discriminate]. cbn [bind]. destruct (take (groups_of _ _) p); [|discriminate]. cbn [bind]. destruct (take _ p); discriminate.
Qed.
Print Assumptions C168_full_refuted.
Example C168_example :
  analysis_groups [1; 2; 3; 4]%Z [5; 1; 5; 1]%Z [1; 0] true = Ok [(1%Z, ([1; 3], 1%Z)); (5%Z, ([0; 2], 5%Z))] /\
  analysis_dataset [1; 1; 2]%Z [0; 0; 1]%Z [0; 1] true = Ok [(1%Z, ([0; 1], 1%Z)); (2%Z, ([2], 2%Z))] /\
  analysis_dataset [1; 2; 3]%Z [0; 1; 0]%Z [0; 2; 1] true = Ok [(1%Z, ([0], 1%Z)); (2%Z, ([2], 3%Z)); (3%Z, ([1], 2%Z))] /\
  analysis_dataset [1; 1; 2]%Z [0; 1; 0]%Z [0; 2; 1] true = Err IndexError.
Proof. repeat split; reflexivity. Qed.
