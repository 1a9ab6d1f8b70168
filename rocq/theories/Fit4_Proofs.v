(** Proofs about the jacobian *)
From Coq Require Import String Ascii ZArith Bool Lia Permutation Sorted Arith List.
From Verif Require Import Base Base_Proofs GF_Model GF_Proofs Str_Model Fit_Model Fit_Spec Fit_Proofs Fit2_Proofs Fit3_Proofs.
Import ListNotations.
Local Open Scope list_scope.

(** ** groups of a parameter within the combined groups *)
Lemma filter_seq_S (p : nat -> bool) n : filter p (seq 0 (S n)) =
  (if p 0%nat then [0%nat] else []) ++ map S (filter (fun i => p (S i)) (seq 0 n)).
Proof.
  simpl. rewrite <- seq_shift, filter_map_comm. destruct (p 0%nat); reflexivity.
Qed.

Lemma first_row l g : In g l -> hd 0%nat (filter (fun i => Z.eqb (nth i l 0%Z) g) (seq 0 (length l))) = number g l.
Proof.
  induction l as [|x l IH]; [intros []|]. intros H. cbn [length]. rewrite filter_seq_S. cbn [nth number].
  rewrite (Z.eqb_sym g x). destruct (Z.eqb_spec x g) as [->|n]; [reflexivity|]. simpl app.
  assert (Hg : In g l) by (destruct H; [congruence|auto]). specialize (IH Hg).
  destruct (filter (fun i => Z.eqb (nth i l 0%Z) g) (seq 0 (length l))) as [|y r] eqn:E.
  - exfalso. apply In_nth with (d := 0%Z) in Hg. destruct Hg as (i & Hi & Ei).
    assert (Hx : In i (filter (fun i => Z.eqb (nth i l 0%Z) g) (seq 0 (length l)))).
    { apply filter_In. split; [apply in_seq; lia|apply Z.eqb_eq; auto]. }
    rewrite E in Hx. destruct Hx.
  - simpl in *. congruence.
Qed.

Lemma hd_map {A B} (f : A -> B) l d e : l <> [] -> hd e (map f l) = f (hd d l).
Proof. destruct l; [congruence|reflexivity]. Qed.

Lemma dyn_df_values gi dyn : length gi = length dyn -> dyn_df gi dyn = group_values gi dyn.
Proof.
  intros L. unfold dyn_df, group_values. rewrite (grouped_rows gi dyn 0%Z) by auto. unfold rowsets. rewrite !map_map.
  apply map_ext_in. intros g Hg.
  assert (Hne : filter (fun i => Z.eqb (nth i gi 0%Z) g) (seq 0 (length gi)) <> []).
  { apply (rowsets_nonempty gi). apply in_map_iff. eauto. }
  rewrite (hd_map _ _ 0%nat) by auto. rewrite first_row; [reflexivity|]. apply in_uniq. exact Hg.
Qed.

Lemma number_first g l : In g l -> nth (number g l) l 0%Z = g /\ (number g l < length l)%nat.
Proof. apply number_nth. Qed.

Lemma refines_map gi dyn : refines gi dyn -> dyn = map (fun g => nth (number g gi) dyn 0%Z) gi.
Proof.
  intros [L H]. apply nth_ext with (d := 0%Z) (d' := 0%Z); [rewrite map_length; auto|].
  intros i Hi. rewrite (nth_map_lt _ gi i 0%Z) by lia.
  destruct (number_first (nth i gi 0%Z) gi) as [A B]; [apply nth_In; lia|].
  apply H; auto; lia.
Qed.

Lemma filter_filter {A} (p q : A -> bool) l : filter p (filter q l) = filter (fun x => q x && p x) l.
Proof.
  induction l as [|x l IH]; simpl; [reflexivity|]. destruct (q x) eqn:E; simpl; [|exact IH].
  destruct (p x); simpl; [f_equal|]; exact IH.
Qed.

Lemma uniq_map_uniq h l : uniq (map h (uniq l)) = uniq (map h l).
Proof.
  induction l as [|x l IH]; simpl; [reflexivity|]. f_equal. rewrite <- IH, <- !(uniq_filter (fun y => negb (Z.eqb y (h x)))), !filter_map_comm. f_equal.
  rewrite filter_filter. f_equal. apply filter_ext. intros y.
  destruct (Z.eqb_spec y x) as [->|]; simpl; [rewrite Z.eqb_refl|]; reflexivity.
Qed.

Lemma uniq_group_values gi dyn : refines gi dyn -> uniq (group_values gi dyn) = uniq dyn.
Proof.
  intros H. unfold group_values. rewrite uniq_map_uniq. rewrite <- (refines_map gi dyn H). reflexivity.
Qed.

Lemma nunique_uniq l : nunique l = length (uniq l).
Proof. unfold nunique. rewrite groupby_closed, map_length, map_id, <- uniq_first_occ. reflexivity. Qed.

Lemma nunique_dyn gi dyn : refines gi dyn -> nunique (dyn_df gi dyn) = length (uniq dyn).
Proof. intros H. rewrite nunique_uniq, dyn_df_values, uniq_group_values by (auto; apply H). reflexivity. Qed.

Lemma uniq_repeat x k r : uniq (repeat x (S k) ++ r) = uniq (x :: r).
Proof.
  induction k as [|k IH]; [reflexivity|].
  change (repeat x (S (S k)) ++ r) with (x :: (repeat x (S k) ++ r)). cbn [uniq]. rewrite IH. cbn [uniq filter].
  rewrite Z.eqb_refl. cbn [negb]. f_equal. rewrite filter_filter. apply filter_ext. intros y. apply andb_diag.
Qed.
Lemma uniq_blocks m l : (1 <= m)%nat -> uniq (concat (map (fun x => repeat x m) l)) = uniq l.
Proof.
  intros Hm. destruct m as [|m]; [lia|]. clear Hm. induction l as [|x l IH]; [reflexivity|].
  cbn [map concat]. rewrite uniq_repeat. cbn [uniq]. rewrite IH. reflexivity.
Qed.

Lemma concat_blocks_nth m l i : (i < m * length l)%nat ->
  nth i (concat (map (fun x => repeat x m) l)) 0%Z = nth (i / m) l 0%Z.
Proof.
  revert i. induction l as [|x l IH]; intros i Hi; [simpl in Hi; lia|]. cbn [map concat].
  assert (Hm : m <> 0%nat) by (intros ->; simpl in Hi; lia).
  destruct (Nat.lt_ge_cases i m).
  - rewrite app_nth1 by (rewrite repeat_length; auto). rewrite Nat.div_small by auto. simpl.
    assert (In (nth i (repeat x m) 0%Z) (repeat x m)) by (apply nth_In; rewrite repeat_length; auto).
    apply repeat_spec in H0. exact H0.
  - rewrite app_nth2 by (rewrite repeat_length; auto). rewrite repeat_length, IH by (simpl in Hi; nia).
    replace (i / m)%nat with (S ((i - m) / m)); [reflexivity|].
    replace i with ((i - m) + 1 * m)%nat at 2 by lia. rewrite Nat.div_add by auto. lia.
Qed.

Lemma concat_blocks_length m (l : list Z) : length (concat (map (fun x => repeat x m) l)) = (m * length l)%nat.
Proof. induction l as [|x l IH]; simpl; [lia|]. rewrite app_length, repeat_length, IH. lia. Qed.

Lemma contiguous_blocks m l : contiguous l -> contiguous (concat (map (fun x => repeat x m) l)).
Proof.
  intros H i j k Hij Hk E. rewrite concat_blocks_length in Hk. rewrite !concat_blocks_nth in * by lia.
  assert (Hm : m <> 0%nat) by (intros ->; simpl in Hk; lia).
  pose proof (Nat.div_le_mono i j m Hm ltac:(lia)). pose proof (Nat.div_le_mono j k m Hm ltac:(lia)).
  assert (k / m < length l)%nat by (apply Nat.div_lt_upper_bound; lia).
  destruct (Nat.eq_dec (i / m) (j / m)) as [->|]; [reflexivity|].
  destruct (Nat.eq_dec (j / m) (k / m)) as [->|]; [congruence|].
  apply (H (i / m) (j / m) (k / m))%nat; auto. lia.
Qed.

Lemma sorted_contiguous l : sorted l -> contiguous l.
Proof.
  intros H i j k Hij Hk E. pose proof (sorted_nth l i j H ltac:(lia) ltac:(lia)).
  pose proof (sorted_nth l j k H ltac:(lia) ltac:(lia)). lia.
Qed.

Lemma maxlen_pos gi : gi <> [] -> (1 <= maxlen (rowsets gi))%nat.
Proof.
  intros H. pose proof (rowsets_ne gi H). destruct (rowsets gi) as [|s r] eqn:E; [congruence|].
  assert (Hs : In s (rowsets gi)) by (rewrite E; left; auto).
  pose proof (rowsets_nonempty gi s Hs). destruct s as [|x s]; [congruence|]. unfold maxlen. cbn [fold_right length]. lia.
Qed.

(** the group numbers of the flattened array *)
Lemma flat_blocks gi dyn : refines gi dyn ->
  concat (map (map (fun i => nth i dyn 0%Z)) (pad (rowsets gi))) =
  concat (map (fun x => repeat x (maxlen (rowsets gi))) (group_values gi dyn)).
Proof.
  intros H. f_equal. unfold pad, group_values. rewrite !map_map.
  assert (G : forall s, In s (rowsets gi) -> (length s <= maxlen (rowsets gi))%nat) by (intros; apply maxlen_ge; auto).
  revert G. generalize (maxlen (rowsets gi)) as m. intros m G. unfold rowsets in *. rewrite map_map.
  apply map_ext_in. intros g Hg.
  set (s := filter (fun i => Z.eqb (nth i gi 0%Z) g) (seq 0 (length gi))).
  assert (Hin : In s (map (fun g => filter (fun i => Z.eqb (nth i gi 0%Z) g) (seq 0 (length gi))) (uniq gi))).
  { apply in_map_iff. exists g; auto. }
  pose proof (rowsets_nonempty gi s Hin) as Hne. specialize (G s Hin).
  assert (Hval : forall i, In i s -> nth i dyn 0%Z = nth (number g gi) dyn 0%Z).
  { intros i Hi. apply filter_In in Hi. destruct Hi as [Hi Ei]. apply in_seq in Hi. apply Z.eqb_eq in Ei.
    destruct (number_first g gi) as [A B]; [apply in_uniq; exact Hg|].
    apply (proj2 H); [lia|exact B|congruence]. }
  assert (Hlast : In (last s 0%nat) s).
  { destruct (exists_last Hne) as (l & y & ->). rewrite last_last. apply in_or_app. right. left. reflexivity. }
  rewrite map_app, map_rep, (Hval _ Hlast).
  assert (E : map (fun i => nth i dyn 0%Z) s = repeat (nth (number g gi) dyn 0%Z) (length s)).
  { clear -Hval. induction s as [|x s IH]; simpl; [reflexivity|]. rewrite (Hval x (or_introl eq_refl)). f_equal.
    apply IH. intros; apply Hval; right; auto. }
  rewrite E, <- repeat_app. f_equal. lia.
Qed.

(** ** contiguous groups: rows are processed in their own order *)
Lemma number_lt_in x l : In x l -> (number x l < length l)%nat.
Proof. apply number_nth. Qed.

Lemma first_positions_sorted l : sorted (map (fun g => Z.of_nat (number g l)) (uniq l)).
Proof.
  induction l as [|x l IH]; simpl; [constructor|]. rewrite Z.eqb_refl. constructor.
  - assert (E : map (fun g => Z.of_nat (if Z.eqb g x then 0 else S (number g l))) (filter (fun y => negb (Z.eqb y x)) (uniq l)) =
                map Z.succ (map (fun g => Z.of_nat (number g l)) (filter (fun y => negb (Z.eqb y x)) (uniq l)))).
    { rewrite map_map. apply map_ext_in. intros g Hg. apply filter_In in Hg. destruct Hg as [_ Hg].
      destruct (Z.eqb g x); [discriminate|]. lia. }
    rewrite E. apply map_mono_sorted; [|intros; lia].
    clear E. revert IH. generalize (uniq l) as u. intros u. unfold sorted.
    induction u as [|y u IHu]; simpl; intros H; [constructor|]. inversion H as [|? ? Hs Hf]; subst.
    destruct (Z.eqb y x); simpl; [apply IHu; auto|]. constructor; [apply IHu; auto|].
    rewrite Forall_forall in *. intros z Hz. apply Hf. apply in_map_iff in Hz. destruct Hz as (w & <- & Hw).
    apply filter_In in Hw. apply in_map_iff. exists w. tauto.
  - apply Forall_forall. intros z Hz. apply in_map_iff in Hz. destruct Hz as (w & <- & Hw). simpl. lia.
Qed.

Lemma group_values_sorted gi dyn : length gi = length dyn -> sorted dyn -> sorted (group_values gi dyn).
Proof.
  intros L Hs. unfold group_values.
  pose proof (first_positions_sorted gi) as H.
  assert (E : map (fun g => nth (number g gi) dyn 0%Z) (uniq gi) =
              map (fun z => nth (Z.to_nat z) dyn 0%Z) (map (fun g => Z.of_nat (number g gi)) (uniq gi))).
  { rewrite map_map. apply map_ext. intros g. rewrite Nat2Z.id. reflexivity. }
  rewrite E. apply map_mono_sorted; auto. intros x y Hx Hy Hle.
  apply in_map_iff in Hx, Hy. destruct Hx as (g & <- & Hg), Hy as (k & <- & Hk).
  rewrite !Nat2Z.id. apply sorted_nth; auto; [lia|]. rewrite <- L. apply number_lt_in, in_uniq. exact Hk.
Qed.

(** in a contiguous list the group numbers do not decrease *)
Lemma contiguous_tail x l : contiguous (x :: l) -> contiguous l.
Proof. intros H i j k Hij Hk E. apply (H (S i) (S j) (S k)); simpl; auto; lia. Qed.

Lemma contiguous_gap l : contiguous l -> forall i j, (i < j)%nat -> (j < length l)%nat -> nth j l 0%Z <> nth i l 0%Z ->
  forall k, (j <= k)%nat -> (k < length l)%nat -> nth k l 0%Z <> nth i l 0%Z.
Proof.
  intros H i j Hij Hj Hne k Hjk Hk E. destruct (Nat.eq_dec j k) as [->|]; [congruence|].
  apply Hne. apply (H i j k); auto. lia.
Qed.

Lemma number_le x l i : (i < length l)%nat -> nth i l 0%Z = x -> (number x l <= i)%nat.
Proof.
  revert i. induction l as [|y l IH]; simpl; intros i Hi E; [lia|]. destruct (Z.eqb_spec x y); [lia|].
  destruct i as [|i]; [congruence|]. specialize (IH i ltac:(lia) E). lia.
Qed.

Lemma rank_first l x y : In x l -> In y l -> (number x l < number y l)%nat -> (rank l x < rank l y)%nat.
Proof.
  intros Hx Hy Hlt. unfold rank.
  apply (proj2 (in_uniq _ _)) in Hx, Hy. destruct (number_nth x _ Hx) as [A B], (number_nth y _ Hy) as [C D].
  pose proof (first_positions_sorted l) as S.
  destruct (Nat.lt_ge_cases (number x (uniq l)) (number y (uniq l))) as [|G]; auto. exfalso.
  pose proof (sorted_nth _ (number y (uniq l)) (number x (uniq l)) S G) as Q. rewrite map_length in Q. specialize (Q B).
  rewrite !(nth_map_lt _ (uniq l) _ 0%Z) in Q by auto. rewrite A, C in Q. lia.
Qed.

Lemma contiguous_rank_mono l i j : contiguous l -> (i <= j)%nat -> (j < length l)%nat ->
  (rank l (nth i l 0%Z) <= rank l (nth j l 0%Z))%nat.
Proof.
  intros H Hij Hj. destruct (Z.eq_dec (nth i l 0%Z) (nth j l 0%Z)) as [->|Hne]; [lia|].
  assert (Hi : (i < length l)%nat) by lia.
  pose proof (nth_In l 0%Z Hi) as Ii. pose proof (nth_In l 0%Z Hj) as Ij.
  apply Nat.lt_le_incl, rank_first; auto.
  pose proof (number_le _ l i Hi eq_refl) as Li.
  destruct (Nat.lt_ge_cases (number (nth i l 0%Z) l) (number (nth j l 0%Z) l)) as [|G]; auto. exfalso.
  destruct (number_first _ l Ij) as [A B].
  destruct (number_first _ l Ii) as [A' B'].
  destruct (Nat.eq_dec (number (nth j l 0%Z) l) (number (nth i l 0%Z) l)) as [E|NE]; [congruence|].
  (* first j  <  first i <= i < j *)
  assert (i <> j) by congruence.
  apply Hne. rewrite (H (number (nth j l 0%Z) l) i j); [exact A|lia|auto|exact A].
Qed.

Lemma processing_order_contiguous l : contiguous l -> processing_order l = seq 0 (length l).
Proof.
  intros H.
  assert (E : map Z.of_nat (processing_order l) = map Z.of_nat (seq 0 (length l))).
  { apply sorted_perm_eq; [|apply sorted_seqZ|apply Permutation_map, processing_order_perm].
    unfold processing_order. pose proof (NoDup_uniq l) as Hn.
    assert (Hsub : forall x, In x (uniq l) -> In x l) by (intros x; apply in_uniq).
    assert (Hord : forall a b, (a < b)%nat -> (b < length (uniq l))%nat -> (rank l (nth a (uniq l) 0%Z) < rank l (nth b (uniq l) 0%Z))%nat).
    { intros a b Hab Hb. unfold rank. rewrite !number_of_nth; auto; lia. }
    revert Hsub Hord. generalize (uniq l) as us. clear Hn.
    induction us as [|u us IH]; intros Hsub Hord; [constructor|]. cbn [map concat]. rewrite map_app. apply sorted_app.
    - clear. generalize (length l) as n. intros n. generalize 0%nat as s.
      unfold sorted. induction n as [|n IH]; intros s; simpl; [constructor|].
      destruct (Z.eqb (nth s l 0%Z) u); simpl; [|apply IH]. constructor; [apply IH|].
      apply Forall_forall. intros z Hz. apply in_map_iff in Hz. destruct Hz as (i & <- & Hi).
      apply filter_In in Hi. destruct Hi as [Hi _]. apply in_seq in Hi. lia.
    - apply IH; [intros; apply Hsub; right; auto|]. intros a b Hab Hb. apply (Hord (S a) (S b)); simpl; lia.
    - intros x y Hx Hy. apply in_map_iff in Hx, Hy. destruct Hx as (i & <- & Hi), Hy as (j & <- & Hj).
      apply filter_In in Hi. destruct Hi as [Hi Ei]. apply in_seq in Hi. apply Z.eqb_eq in Ei.
      apply in_concat in Hj. destruct Hj as (s & Hs & Hj). apply in_map_iff in Hs. destruct Hs as (w & <- & Hw).
      apply filter_In in Hj. destruct Hj as [Hj Ej]. apply in_seq in Hj. apply Z.eqb_eq in Ej.
      apply In_nth with (d := 0%Z) in Hw. destruct Hw as (b & Hb & Eb).
      pose proof (Hord 0%nat (S b) ltac:(lia) ltac:(simpl; lia)) as R. simpl in R. rewrite Eb in R.
      destruct (Nat.le_gt_cases i j) as [|G]; [lia|]. exfalso.
      pose proof (contiguous_rank_mono l j i H ltac:(lia) ltac:(lia)) as M. rewrite Ei, Ej in M. lia. }
  apply (f_equal (map Z.to_nat)) in E. rewrite !map_map in E.
  rewrite !(map_ext (fun x => Z.to_nat (Z.of_nat x)) (fun x => x)) in E by (intros; apply Nat2Z.id).
  rewrite !map_id in E. exact E.
Qed.

(** ** entries of the sparse matrix *)
Lemma combine_seq_number us (R : Z -> list nat) : NoDup us ->
  combine (seq 0 (length us)) (map R us) = map (fun u => (number u us, R u)) us.
Proof.
  intros Hn. apply nth_ext with (d := (0%nat, [])) (d' := (0%nat, [])); [rewrite combine_length, !map_length, seq_length; lia|].
  intros i. rewrite combine_length, map_length, seq_length, Nat.min_id. intros Hi.
  rewrite combine_nth by (rewrite map_length, seq_length; auto). rewrite seq_nth by auto.
  rewrite (nth_map_lt R us i 0%Z) by auto. rewrite (nth_map_lt _ us i 0%Z) by auto. rewrite number_of_nth by auto. reflexivity.
Qed.

Lemma row_ind_ranks l : concat (map (fun p => repeat (fst p) (length (snd p))) (combine (seq 0 (length (rowsets l))) (rowsets l))) =
  map (fun i => rank l (nth i l 0%Z)) (processing_order l).
Proof.
  unfold processing_order. fold (rowsets l). unfold rowsets at 1 2. rewrite map_length, combine_seq_number by apply NoDup_uniq.
  unfold rowsets. rewrite map_map, concat_map, map_map. f_equal. apply map_ext. intros u. cbn [fst snd].
  assert (H : forall i, In i (filter (fun i => Z.eqb (nth i l 0%Z) u) (seq 0 (length l))) -> nth i l 0%Z = u).
  { intros i Hi. apply filter_In in Hi. apply Z.eqb_eq. tauto. }
  induction (filter (fun i => Z.eqb (nth i l 0%Z) u) (seq 0 (length l))) as [|i s IH]; simpl; [reflexivity|].
  rewrite (H i (or_introl eq_refl)). unfold rank at 1. f_equal. apply IH. intros; apply H; right; auto.
Qed.

Lemma jac_rule_ok gi dyn : gi <> [] -> length dyn = length gi ->
  let flat := concat (map (map (fun i => nth i dyn 0%Z)) (pad (rowsets gi))) in
  jac_rule gi dyn = Ok (map (fun i => rank flat (nth i flat 0%Z)) (processing_order flat), processing_order flat).
Proof.
  intros Hg L flat. unfold jac_rule. rewrite (get_data_ok gi dyn 0%Z Hg L : rectangularize (grouped gi dyn) None = _). cbn [bind].
  fold flat. f_equal.
  assert (E : map snd (groupby_unsorted Z.eq_dec snd fst (combine (seq 0 (length flat)) flat)) = rowsets flat).
  { rewrite groupby_closed, map_map.
    rewrite (combine_nth_seq (seq 0 (length flat)) flat 0%nat 0%Z) by (rewrite seq_length; auto). rewrite seq_length.
    rewrite (map_map _ snd). cbn [snd]. rewrite map_nth_seq, <- uniq_first_occ. unfold rowsets. apply map_ext. intros k.
    rewrite filter_map_comm, map_map. cbn [fst snd].
    rewrite (eqb_dec_filter (fun i => nth i flat 0%Z)). rewrite <- (map_id (filter _ _)) at 2. apply map_ext_in.
    intros i Hi. apply filter_In in Hi. destruct Hi as [Hi _]. apply in_seq in Hi. rewrite seq_nth by lia. reflexivity. }
  rewrite E, row_ind_ranks. reflexivity.
Qed.

Section Csr.
Context {V : Type} (zero : V) (add : V -> V -> V).
Hypothesis add_zero : forall x, add x zero = x.

(** columns in processing order: one value at each position *)
Lemma csr_single (data : list V) (row : nat -> nat) r c : forall s n, length data = n -> (s <= c < s + n)%nat ->
  fold_right add zero (map fst (filter (fun q : V * (nat * nat) => Nat.eqb (fst (snd q)) r && Nat.eqb (snd (snd q)) c)
     (combine data (combine (map row (seq s n)) (seq s n))))) =
  if Nat.eqb (row c) r then nth (c - s) data zero else zero.
Proof using add_zero.
  assert (N : forall data s n, length data = n -> (c < s)%nat ->
     filter (fun q : V * (nat * nat) => Nat.eqb (fst (snd q)) r && Nat.eqb (snd (snd q)) c)
     (combine data (combine (map row (seq s n)) (seq s n))) = []).
  { clear. induction data as [|x data IH]; intros s n L Hc; [reflexivity|]. destruct n as [|n]; [discriminate|].
    simpl in *. rewrite (proj2 (Nat.eqb_neq s c)) by lia. rewrite andb_false_r. apply IH; lia. }
  induction data as [|x data IH]; intros s n L Hc; [simpl in L; lia|]. destruct n as [|n]; [lia|].
  cbn [seq map combine filter fst snd]. destruct (Nat.eqb_spec s c) as [->|Hne].
  - rewrite N by (simpl in L; lia). rewrite Nat.sub_diag. rewrite andb_true_r. destruct (Nat.eqb (row c) r); simpl; auto.
  - rewrite andb_false_r. rewrite IH by (simpl in L; lia). replace (c - s)%nat with (S (c - S s)) by lia. reflexivity.
Qed.
End Csr.

Lemma rank_nth_self l k : (k < length (uniq l))%nat -> rank l (nth k (uniq l) 0%Z) = k.
Proof. intros H. unfold rank. apply number_of_nth; auto using NoDup_uniq. Qed.

Lemma max_ranks l : l <> [] -> S (fold_right Nat.max 0%nat (map (fun i => rank l (nth i l 0%Z)) (seq 0 (length l)))) = length (uniq l).
Proof.
  intros Hne.
  assert (Hmax : forall m, (forall x, In x m -> (x < length (uniq l))%nat) -> m <> [] -> (fold_right Nat.max 0 m < length (uniq l))%nat).
  { induction m as [|x m IH]; intros H Hm; [congruence|]. simpl. destruct m as [|y m].
    - simpl. specialize (H x (or_introl eq_refl)). lia.
    - apply Nat.max_lub_lt; [apply H; left; auto|]. apply IH; [intros; apply H; right; auto|congruence]. }
  assert (Hge : forall m x, In x m -> (x <= fold_right Nat.max 0 m)%nat).
  { induction m as [|y m IH]; simpl; [tauto|]. intros x [->|Hx]; [lia|]. specialize (IH x Hx). lia. }
  destruct l as [|x0 l0] eqn:E; [congruence|]. rewrite <- E in *.
  assert (Hpos : (1 <= length (uniq l))%nat) by (rewrite E; simpl; lia).
  apply Nat.le_antisymm.
  - apply Hmax.
    + intros x Hx. apply in_map_iff in Hx. destruct Hx as (i & <- & Hi). apply in_seq in Hi. apply rank_lt, nth_In. lia.
    + rewrite E. simpl. congruence.
  - set (k := (length (uniq l) - 1)%nat). assert (Hk : (k < length (uniq l))%nat) by lia.
    assert (Hin : In (nth k (uniq l) 0%Z) l) by (apply in_uniq, nth_In; auto).
    apply In_nth with (d := 0%Z) in Hin. destruct Hin as (i & Hi & Ei).
    pose proof (Hge (map (fun i => rank l (nth i l 0%Z)) (seq 0 (length l))) k) as G.
    assert (In k (map (fun i => rank l (nth i l 0%Z)) (seq 0 (length l)))).
    { apply in_map_iff. exists i. rewrite Ei, rank_nth_self by auto. split; [reflexivity|apply in_seq; lia]. }
    specialize (G H). lia.
Qed.

Section JacFacts.
Context {V : Type} (zero : V) (add : V -> V -> V).
Hypothesis add_zero : forall x, add x zero = x.

Lemma jac_param_ok gi dyn (D : nat -> V) : gi <> [] -> refines gi dyn -> contiguous (group_values gi dyn) ->
  exists J, jac_param zero add gi dyn (map (map D) (pad (rowsets gi))) = Ok (length (uniq dyn), J) /\
    forall g c, (g < length (uniq dyn))%nat -> (c < length (concat (pad (rowsets gi))))%nat ->
      J g c = let i := nth c (concat (pad (rowsets gi))) 0%nat in
              if Nat.eqb (rank dyn (nth i dyn 0%Z)) g then D i else zero.
Proof using add_zero.
  intros Hg Hr Hc. set (idx := concat (pad (rowsets gi))).
  assert (Hdata : concat (map (map D) (pad (rowsets gi))) = map D idx) by (rewrite <- concat_map; reflexivity).
  assert (L : length dyn = length gi) by (symmetry; apply Hr).
  assert (Hidx : forall c, (c < length idx)%nat -> (nth c idx 0 < length gi)%nat).
  { intros c Hlt. pose proof (nth_In idx 0%nat Hlt) as Hin. unfold idx in Hin at 2. apply in_concat in Hin.
    destruct Hin as (s & Hs & Hin). apply In_nth with (d := []) in Hs. destruct Hs as (r & Hr1 & <-).
    apply In_nth with (d := 0%nat) in Hin. destruct Hin as (k & Hk & <-). apply pad_in; auto. }
  unfold jac_param. rewrite Hdata, (nunique_dyn gi dyn Hr).
  destruct (Nat.eqb_spec (length (uniq dyn)) 1) as [E1|N1].
  - eexists. split; [rewrite E1; reflexivity|]. intros g c Hgl Hcl. cbv beta zeta.
    rewrite (nth_map_lt D idx c 0%nat) by exact Hcl.
    assert (R : (rank dyn (nth (nth c idx 0%nat) dyn 0%Z) < 1)%nat).
    { rewrite <- E1. apply rank_lt, nth_In. rewrite L. auto. }
    destruct (Nat.eqb_spec (rank dyn (nth (nth c idx 0%nat) dyn 0%Z)) g); [reflexivity|lia].
  - rewrite (jac_rule_ok gi dyn Hg L). cbn [bind].
    set (flat := concat (map (map (fun i => nth i dyn 0%Z)) (pad (rowsets gi)))).
    assert (Hf : flat = map (fun i => nth i dyn 0%Z) idx) by (unfold flat; rewrite <- concat_map; reflexivity).
    assert (Lf : length flat = length idx) by (rewrite Hf, map_length; reflexivity).
    assert (Hfl : flat = concat (map (fun x => repeat x (maxlen (rowsets gi))) (group_values gi dyn))) by (apply flat_blocks; auto).
    assert (Cf : contiguous flat) by (rewrite Hfl; apply contiguous_blocks; auto).
    assert (Uf : uniq flat = uniq dyn).
    { rewrite Hfl, uniq_blocks by (apply maxlen_pos; auto). apply uniq_group_values; auto. }
    rewrite (processing_order_contiguous flat Cf). cbn [fst snd]. rewrite max_ranks.
    + rewrite Uf. eexists. split; [reflexivity|]. intros g c Hgl Hcl. cbv beta zeta. unfold csr_entry. cbn [fst snd].
      rewrite (csr_single zero add add_zero (map D idx) (fun i => rank flat (nth i flat 0%Z)) g c 0 (length flat));
        [|rewrite map_length; auto|fold idx in Hcl; lia].
      rewrite Nat.sub_0_r, (nth_map_lt D idx c 0%nat) by exact Hcl.
      assert (E2 : nth c flat 0%Z = nth (nth c idx 0%nat) dyn 0%Z).
      { rewrite Hf. apply (nth_map_lt (fun i => nth i dyn 0%Z) idx c 0%nat). exact Hcl. }
      rewrite E2. unfold rank. rewrite Uf. reflexivity.
    + intros E0. rewrite E0 in Uf. apply (f_equal (@length Z)) in Uf.
      destruct gi as [|x gi']; [congruence|]. destruct dyn as [|y dyn']; [discriminate|]. simpl in Uf. lia.
Qed.

Lemma jac_block_visible gi dyn (D : nat -> V) index : gi <> [] -> refines gi dyn -> length index = length gi ->
  contiguous (group_values gi dyn) ->
  forall ps rest, (forall mask, get_mask gi index = Ok mask -> jac_lsq zero add gi mask ps = Ok rest) ->
  forall mask, get_mask gi index = Ok mask ->
  jac_lsq zero add gi mask ((dyn, map (map D) (pad (rowsets gi))) :: ps) =
  Ok (map (fun g => map (fun i => if Nat.eqb (rank dyn (nth i dyn 0%Z)) g then D i else zero) (processing_order gi))
          (seq 0 (length (uniq dyn))) ++ rest).
Proof using add_zero.
  intros Hg Hr L Hc ps rest Hps mask Hm. cbn [jac_lsq].
  destruct (jac_param_ok gi dyn D Hg Hr Hc) as (J & E & HJ). rewrite E. cbn [bind]. rewrite (Hps mask Hm). cbn [bind fst snd].
  do 2 f_equal. apply map_ext_in. intros g Hgin. apply in_seq in Hgin.
  rewrite <- concat_map, map_length.
  assert (E1 : map (J g) (seq 0 (length (concat (pad (rowsets gi))))) =
               concat (map (map (fun i => if Nat.eqb (rank dyn (nth i dyn 0%Z)) g then D i else zero)) (pad (rowsets gi)))).
  { rewrite <- concat_map. apply nth_ext with (d := zero) (d' := zero); [rewrite !map_length, seq_length; auto|].
    intros c. rewrite map_length, seq_length. intros Hcl.
    rewrite (nth_map_lt (J g) _ c 0%nat) by (rewrite seq_length; auto). rewrite seq_nth by auto. simpl Nat.add.
    rewrite (nth_map_lt _ (concat (pad (rowsets gi))) c 0%nat) by auto. apply HJ; auto. lia. }
  rewrite E1. change (visible (map (map (fun i => if Nat.eqb (rank dyn (nth i dyn 0%Z)) g then D i else zero)) (pad (rowsets gi))) mask =
    map (fun i => if Nat.eqb (rank dyn (nth i dyn 0%Z)) g then D i else zero) (processing_order gi)).
  rewrite visible_map. rewrite get_mask_ok in Hm by auto. injection Hm as <-. rewrite visible_pad. reflexivity.
Qed.

(** the whole jacobian *)
Lemma jac_lsq_ok gi index mask (ps : list (list Z * (nat -> V))) : gi <> [] -> length index = length gi ->
  get_mask gi index = Ok mask ->
  (forall p, In p ps -> refines gi (fst p) /\ contiguous (group_values gi (fst p))) ->
  jac_lsq zero add gi mask (map (fun p => (fst p, map (map (snd p)) (pad (rowsets gi)))) ps) =
  Ok (concat (map (fun p => map (fun g => map (fun i => if Nat.eqb (rank (fst p) (nth i (fst p) 0%Z)) g then snd p i else zero)
                                              (processing_order gi))
                                (seq 0 (length (uniq (fst p))))) ps)).
Proof using add_zero.
  intros Hg L Hm. induction ps as [|[dyn D] ps IH]; intros H; [reflexivity|].
  cbn [map concat fst snd]. destruct (H (dyn, D) (or_introl eq_refl)) as [Hr Hc].
  apply (jac_block_visible gi dyn D index Hg Hr L Hc); auto.
  intros mask' Hm'. assert (mask' = mask) by congruence. subst mask'. apply IH. intros; apply H; right; auto.
Qed.
End JacFacts.
