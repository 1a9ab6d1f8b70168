(** Proofs about the alignment of observations in plots *)
From Coq Require Import ZArith Bool Lia Permutation Sorted Arith List.
From Verif Require Import Base Base_Proofs GF_Model GF_Proofs Fit_Model Fit_Spec Fit_Proofs Fit2_Proofs Fit3_Proofs Fit4_Proofs Aln_Model Aln_Spec.
Import ListNotations.
Local Open Scope nat_scope.
Local Open Scope list_scope.

Lemma calc_rows_ok index gi : gi <> [] -> length index = length gi -> calc_rows index gi = Ok (processing_order gi).
Proof.
  intros H L. unfold calc_rows. rewrite (get_data_ok gi (seq 0 (length gi)) 0%nat) by (auto; rewrite seq_length; auto).
  cbn [bind]. rewrite (get_mask_ok gi index H L). cbn [bind]. f_equal.
  change (visible (map (map (fun i => nth i (seq 0 (length gi)) 0%nat)) (pad (rowsets gi))) (map (fun s => repeat false (length s) ++ repeat true (maxlen (rowsets gi) - length s)) (rowsets gi)) = processing_order gi).
  rewrite visible_map, visible_pad. rewrite <- map_id. apply map_ext_in. intros i Hi.
  apply (Permutation_in _ (processing_order_perm gi)), in_seq in Hi. rewrite seq_nth; lia.
Qed.
Lemma calc_index_ok index gi : length index = length gi -> calc_index index gi = map (fun i => nth i index 0%Z) (processing_order gi).
Proof. intros L. unfold calc_index. rewrite (grouped_rows gi index 0%Z L). unfold processing_order. fold (rowsets gi). now rewrite concat_map. Qed.

Lemma order_length gi : length (processing_order gi) = length gi.
Proof. rewrite (Permutation_length (processing_order_perm gi)). apply seq_length. Qed.
Lemma order_lt gi i : In i (processing_order gi) -> (i < length gi)%nat.
Proof. intros Hi. apply (Permutation_in _ (processing_order_perm gi)), in_seq in Hi. lia. Qed.
Lemma order_NoDup gi : NoDup (processing_order gi).
Proof. apply (Permutation_NoDup (Permutation_sym (processing_order_perm gi))), seq_NoDup. Qed.

Lemma nth_map' {A B} (f : A -> B) l i d e : (i < length l)%nat -> nth i (map f l) d = f (nth i l e).
Proof. intros H. rewrite (nth_indep _ d (f e)) by (rewrite map_length; auto). apply map_nth. Qed.

(** *** the observations are processed in their own order iff the groups are contiguous *)
Lemma order_blocks gi : map (fun i => nth i gi 0%Z) (processing_order gi) = concat (map (fun k => repeat k (mult gi k)) (uniq gi)).
Proof.
  unfold processing_order. rewrite concat_map, map_map. f_equal. apply map_ext. intros k. unfold mult.
  transitivity (filter (fun x => Z.eqb x k) (map (fun i => nth i gi 0%Z) (seq 0 (length gi)))).
  - symmetry. apply (filter_map_comm (fun x => Z.eqb x k)).
  - rewrite map_nth_seq. generalize gi. intros l. clear. induction l as [|x l IH]; [reflexivity|]. cbn [filter].
    destruct (Z.eqb_spec x k), (Z.eq_dec x k); try congruence. cbn [length repeat]. f_equal; [assumption|exact IH].
Qed.
Lemma order_contiguous gi : contiguous (map (fun i => nth i gi 0%Z) (processing_order gi)).
Proof.
  set (L := map (fun i => nth i gi 0%Z) (processing_order gi)).
  assert (S : sorted (map (fun x => Z.of_nat (rank gi x)) L)).
  { unfold L. rewrite order_blocks, concat_map, map_map.
    pose proof (sorted_blocks (map (fun k => (Z.of_nat (rank gi k), mult gi k)) (uniq gi))) as B. rewrite !map_map in B. cbn [fst snd] in B.
    erewrite map_ext; [apply B|].
    - apply sorted_of_nth. intros i j Hij Hj. rewrite map_length in Hj. rewrite !(nth_map' _ _ _ _ 0%Z) by lia.
      unfold rank. rewrite !number_of_nth by (auto using NoDup_uniq; lia). lia.
    - intros k. cbn. generalize (mult gi k). intros m. induction m as [|m IH]; [reflexivity|]. cbn. now f_equal. }
  assert (I : forall x, In x L -> In x gi).
  { intros x Hx. apply in_map_iff in Hx. destruct Hx as (i & <- & Hi). apply nth_In. now apply order_lt. }
  intros i j k Hij Hk Eik.
  pose proof (sorted_nth _ i j S ltac:(lia)) as A. pose proof (sorted_nth _ j k S ltac:(lia)) as B.
  rewrite map_length in A, B. specialize (A ltac:(lia)). specialize (B ltac:(lia)).
  rewrite !(nth_map' _ L _ _ 0%Z) in A by lia. rewrite !(nth_map' _ L _ _ 0%Z) in B by lia. rewrite <- Eik in B.
  apply (rank_inj gi); try (apply I, nth_In; lia). lia.
Qed.
Lemma order_seq_contiguous gi : processing_order gi = seq 0 (length gi) <-> contiguous gi.
Proof.
  split; [|apply processing_order_contiguous]. intros H. pose proof (order_contiguous gi) as Q. rewrite H, map_nth_seq in Q. exact Q.
Qed.

(** *** unique labels *)
Lemma is_unique_iff l : is_unique l = true <-> NoDup l.
Proof.
  induction l as [|x l IH]; cbn [is_unique]; [split; auto; constructor|]. rewrite andb_true_iff, IH, negb_true_iff. split.
  - intros [A B]. constructor; auto. intros Hin. apply Bool.not_true_iff_false in A. apply A. apply existsb_exists. exists x. split; auto. apply Z.eqb_refl.
  - intros H. inversion H as [|? ? Hx Hl]; subst. split; auto. apply Bool.not_true_iff_false. intros A. apply existsb_exists in A.
    destruct A as (y & Hy & E). apply Z.eqb_eq in E. subst. auto.
Qed.
Lemma at_label_map {A} (f : A -> Z) l x : NoDup (map f l) -> In x l -> at_label (f x) (combine (map f l) l) = Some x.
Proof.
  induction l as [|y l IH]; cbn; [tauto|]. intros Hn Hx. inversion Hn as [|? ? Hy Hl]; subst.
  destruct (Z.eqb_spec (f x) (f y)) as [E|n].
  - destruct Hx as [->|Hx]; auto. exfalso. apply Hy. rewrite <- E. now apply in_map.
  - destruct Hx as [->|Hx]; [congruence|auto].
Qed.
Lemma NoDup_map_order index gi : length index = length gi -> (NoDup (map (fun i => nth i index 0%Z) (processing_order gi)) <-> NoDup index).
Proof.
  intros L. assert (P : Permutation (map (fun i => nth i index 0%Z) (processing_order gi)) index).
  { rewrite (processing_order_perm gi), <- L, map_nth_seq. reflexivity. }
  split; intros H; [apply (Permutation_NoDup P H)|apply (Permutation_NoDup (Permutation_sym P) H)].
Qed.
Lemma nth_inj_NoDup index l : NoDup index -> (forall i, In i l -> (i < length index)%nat) -> length l = length index ->
  map (fun i => nth i index 0%Z) l = index -> l = seq 0 (length index).
Proof.
  intros Hn Hl L E. apply nth_ext with (d := 0%nat) (d' := 0%nat); [now rewrite seq_length|].
  intros i Hi. rewrite seq_nth by lia. cbn.
  apply (proj1 (NoDup_nth index 0%Z) Hn); [apply Hl, nth_In; auto|lia|].
  rewrite <- E at 2. now rewrite (nth_map' _ _ _ _ 0%nat).
Qed.
Lemma combine_map_r {A B} (f : A -> B) l : combine l (map f l) = map (fun x => (x, f x)) l.
Proof. induction l; cbn; congruence. Qed.
Lemma combine_inj_r {A B} (l : list A) (m m' : list B) : length m = length l -> length m' = length l -> combine l m = combine l m' -> m = m'.
Proof.
  revert m m'. induction l as [|x l IH]; intros [|y m] [|y' m']; cbn; try discriminate; auto. intros A1 A2 E. injection E as <- E. f_equal. apply IH; auto; lia.
Qed.
Lemma map_Some_inj {A} (l m : list A) : map Some l = map Some m -> l = m.
Proof. revert m. induction l as [|x l IH]; intros [|y m]; cbn; try discriminate; auto. intros E. injection E as <- E. f_equal. auto. Qed.

(** *** groups of pandas *)
Lemma fromkeys_uniq l : fromkeys l = uniq l.
Proof.
  unfold fromkeys. rewrite uniq_first_occ. change (keys (groupby_unsorted Z.eq_dec (fun x : Z => x) (fun y : Z => y) l) = first_occ Z.eq_dec [] l).
  rewrite groupby_keys, map_id. reflexivity.
Qed.
Lemma insert_perm x l : Permutation (insert_z x l) (x :: l).
Proof. induction l as [|y l IH]; cbn; [auto|]. destruct (Z.leb x y); auto. rewrite IH. apply perm_swap. Qed.
Lemma sort_perm l : Permutation (sort_z l) l.
Proof. induction l as [|x l IH]; cbn; [auto|]. rewrite insert_perm. now constructor. Qed.
Lemma insert_sorted x l : sorted l -> sorted (insert_z x l).
Proof.
  unfold sorted. induction l as [|y l IH]; cbn; intros H; [repeat constructor|]. inversion H as [|? ? Hs Hf]; subst.
  destruct (Z.leb_spec x y).
  - constructor; auto. constructor; auto. eapply Forall_impl; [|exact Hf]. cbn. intros; lia.
  - constructor; auto. rewrite Forall_forall in *. intros z Hz. apply (Permutation_in _ (insert_perm x l)) in Hz. destruct Hz as [->|Hz]; [lia|auto].
Qed.
Lemma sort_sorted l : sorted (sort_z l).
Proof. induction l as [|x l IH]; cbn; [constructor|]. now apply insert_sorted. Qed.
Lemma sort_id l : sorted l -> sort_z l = l.
Proof. intros H. apply sorted_perm_eq; auto using sort_sorted, sort_perm. Qed.

Lemma sel_rows l : forall (vals : list nat) k, length vals = length l ->
  map snd (filter (fun p => Z.eqb (fst p) k) (combine l vals)) = map (fun p => nth p vals 0%nat) (rows_with l k).
Proof.
  intros vals k L. unfold rows_with. rewrite (combine_nth_seq l vals 0%Z 0%nat) by auto.
  rewrite filter_map_comm, map_map. cbn [fst snd]. reflexivity.
Qed.
Lemma groups_of_rows ks (vals : list nat) : length vals = length ks ->
  groups_of ks vals = map (fun k => map (fun p => nth p vals 0%nat) (rows_with ks k)) (sort_z (uniq ks)).
Proof. intros L. unfold groups_of. rewrite fromkeys_uniq. apply map_ext. intros k. now apply sel_rows. Qed.
Lemma in_rows_with l k i : In i (rows_with l k) <-> (i < length l)%nat /\ nth i l 0%Z = k.
Proof. unfold rows_with. rewrite filter_In, in_seq, Z.eqb_eq. split; intros [A B]; split; auto; lia. Qed.
Lemma rows_with_nonempty l k : In k l -> exists i, In i (rows_with l k).
Proof. intros H. apply In_nth with (d := 0%Z) in H. destruct H as (i & Hi & E). exists i. now apply in_rows_with. Qed.
Lemma group_keys index gi : length index = length gi -> map fst (groupby_unsorted Z.eq_dec (@snd Z Z) (@fst Z Z) (combine index gi)) = uniq gi.
Proof.
  intros L. change (keys (groupby_unsorted Z.eq_dec (@snd Z Z) (@fst Z Z) (combine index gi)) = uniq gi).
  rewrite groupby_keys, <- uniq_first_occ. f_equal. revert gi L. induction index as [|x l IH]; intros [|y gi]; cbn; try discriminate; auto. intros L. f_equal. auto.
Qed.

(** *** dates of groups *)
Lemma filter_true {A} (p : A -> bool) l : (forall x, In x l -> p x = true) -> filter p l = l.
Proof. induction l as [|x l IH]; cbn; intros H; [reflexivity|]. rewrite (H x (or_introl eq_refl)), IH; auto. Qed.
Lemma uniq_app a b : (forall x, In x a -> ~ In x b) -> uniq (a ++ b) = uniq a ++ uniq b.
Proof.
  induction a as [|x a IH]; cbn [app uniq]; intros H; [reflexivity|]. rewrite IH by (intros y Hy; apply H; now right).
  rewrite filter_app. cbn [app]. f_equal. f_equal. apply filter_true. intros y Hy. apply (proj1 (in_uniq _ _)) in Hy.
  destruct (Z.eqb_spec y x) as [->|]; [|reflexivity]. exfalso. apply (H x); [now left|auto].
Qed.
Lemma uniq_concat (R : Z -> list Z) us : NoDup us -> (forall k k' x, In x (R k) -> In x (R k') -> k = k') ->
  uniq (concat (map R us)) = concat (map (fun k => uniq (R k)) us).
Proof.
  intros Hn D. induction us as [|u us IH]; [reflexivity|]. inversion Hn as [|? ? Hu Hus]; subst. cbn [map concat].
  rewrite uniq_app; [rewrite IH by auto; reflexivity|]. intros x Hx Hc. apply in_concat in Hc. destruct Hc as (l & Hl & Hx').
  apply in_map_iff in Hl. destruct Hl as (k & <- & Hk). pose proof (D _ _ _ Hx Hx'). congruence.
Qed.
Lemma uniq_id l : NoDup l -> uniq l = l.
Proof.
  induction 1 as [|x l Hx Hl IH]; [reflexivity|]. cbn. rewrite IH. f_equal. apply filter_true. intros y Hy.
  destruct (Z.eqb_spec y x) as [->|]; [contradiction|reflexivity].
Qed.

Definition group_dates (index gi : list Z) (k : Z) : list Z := map (fun i => nth i index 0%Z) (rows_with gi k).
Lemma fit_index_ok index gi : length index = length gi -> fit_index index gi = concat (map (fun k => uniq (group_dates index gi k)) (uniq gi)).
Proof.
  intros L. unfold fit_index. rewrite (grouped_rows gi index 0%Z L). unfold rowsets. rewrite !map_map. f_equal. apply map_ext. intros k.
  apply fromkeys_uniq.
Qed.
Lemma order_dates index gi : map (fun i => nth i index 0%Z) (processing_order gi) = concat (map (group_dates index gi) (uniq gi)).
Proof. unfold processing_order. rewrite concat_map, map_map. reflexivity. Qed.
Lemma in_group_dates index gi k x : In x (group_dates index gi k) <-> exists i, i < length gi /\ nth i gi 0%Z = k /\ nth i index 0%Z = x.
Proof.
  unfold group_dates. rewrite in_map_iff. split.
  - intros (i & E & Hi). apply in_rows_with in Hi. exists i. tauto.
  - intros (i & A & B & C). exists i. split; auto. now apply in_rows_with.
Qed.
Lemma date_once_disjoint index gi : length index = length gi -> date_once index gi ->
  forall k k' x, In x (group_dates index gi k) -> In x (group_dates index gi k') -> k = k'.
Proof.
  intros L D k k' x H H'. apply in_group_dates in H, H'. destruct H as (i & A & B & C), H' as (j & A' & B' & C'). subst.
  apply D; [lia|lia|congruence].
Qed.
Lemma fit_index_uniq index gi : length index = length gi -> date_once index gi ->
  fit_index index gi = uniq (map (fun i => nth i index 0%Z) (processing_order gi)).
Proof.
  intros L D. rewrite fit_index_ok, order_dates by auto. symmetry. apply uniq_concat; [apply NoDup_uniq|]. now apply date_once_disjoint.
Qed.
Lemma in_fit_index index gi x : length index = length gi -> (In x (fit_index index gi) <-> In x index).
Proof.
  intros L. rewrite fit_index_ok by auto. rewrite in_concat. split.
  - intros (l & Hl & Hx). apply in_map_iff in Hl. destruct Hl as (k & <- & Hk). apply (proj1 (in_uniq _ _)), in_group_dates in Hx.
    destruct Hx as (i & A & B & <-). apply nth_In. lia.
  - intros Hx. apply In_nth with (d := 0%Z) in Hx. destruct Hx as (i & Hi & E).
    exists (uniq (group_dates index gi (nth i gi 0%Z))). split.
    + apply in_map_iff. eexists. split; [reflexivity|]. apply in_uniq, nth_In. lia.
    + apply in_uniq, in_group_dates. exists i. repeat split; auto. lia.
Qed.
Lemma NoDup_concat_disjoint (R : Z -> list Z) us k k' x : NoDup (concat (map R us)) -> In k us -> In k' us -> In x (R k) -> In x (R k') -> k = k'.
Proof.
  induction us as [|u us IH]; cbn [map concat]; [intros _ []|]. intros Hn Hk Hk' Hx Hx'.
  assert (X : forall k, In k us -> In x (R k) -> In x (concat (map R us))).
  { intros q Hq Hxq. apply in_concat. exists (R q). split; auto. now apply in_map. }
  assert (Y : forall a b : list Z, NoDup (a ++ b) -> In x a -> In x b -> False).
  { clear. induction a as [|y a IH]; cbn; [tauto|]. intros b Hn. inversion Hn as [|? ? Hy Hr]; subst. intros [->|Ha] Hb; [apply Hy, in_or_app; auto|eauto]. }
  assert (Z' : NoDup (concat (map R us))).
  { clear -Hn. revert Hn. generalize (concat (map R us)) (R u). intros b a. induction a as [|y a IHa]; cbn; auto. intros Hn. inversion Hn; auto. }
  destruct Hk as [->|Hk], Hk' as [->|Hk']; auto; exfalso; eauto.
Qed.
Lemma fit_index_NoDup index gi : length index = length gi -> (NoDup (fit_index index gi) <-> date_once index gi).
Proof.
  intros L. split.
  - intros Hn i j Hi Hj E. rewrite fit_index_ok in Hn by auto.
    apply (NoDup_concat_disjoint (fun k => uniq (group_dates index gi k)) (uniq gi) _ _ (nth i index 0%Z)); auto;
      try (apply in_uniq, nth_In; lia); apply in_uniq, in_group_dates; [exists i|exists j]; repeat split; auto; lia.
  - intros D. rewrite fit_index_uniq by auto. apply NoDup_uniq.
Qed.
Lemma fit_index_perm index gi : length index = length gi -> date_once index gi -> Permutation (fit_index index gi) (uniq index).
Proof.
  intros L D. apply NoDup_Permutation; [now apply fit_index_NoDup|apply NoDup_uniq|]. intros x. rewrite in_fit_index, in_uniq by auto. tauto.
Qed.
Lemma fit_index_long index gi : length index = length gi -> ~ date_once index gi -> length (uniq index) < length (fit_index index gi).
Proof.
  intros L D. destruct (Nat.lt_ge_cases (length (uniq index)) (length (fit_index index gi))) as [|G]; auto. exfalso. apply D.
  apply fit_index_NoDup; auto. apply (NoDup_incl_NoDup (NoDup_uniq index)); [auto|]. intros x Hx. apply in_fit_index; auto. now apply in_uniq.
Qed.

(** rows of the estimates with a date *)
Lemma order_rows index gi t : length index = length gi ->
  Permutation (map (fun p => nth p (processing_order gi) 0) (rows_with (map (fun i => nth i index 0%Z) (processing_order gi)) t)) (rows_with index t).
Proof.
  intros L. set (o := processing_order gi).
  assert (E : map (fun p => nth p o 0) (rows_with (map (fun i => nth i index 0%Z) o) t) = filter (fun i => Z.eqb (nth i index 0%Z) t) o).
  { unfold rows_with. rewrite map_length. transitivity (filter (fun i => Z.eqb (nth i index 0%Z) t) (map (fun p => nth p o 0) (seq 0 (length o)))); [|now rewrite map_nth_seq].
    rewrite (filter_map_comm (fun i => Z.eqb (nth i index 0%Z) t)). f_equal. apply filter_ext_in. intros p Hp. apply in_seq in Hp.
    rewrite (nth_map' _ o _ _ 0) by lia. reflexivity. }
  rewrite E. unfold rows_with, o. rewrite L.
  assert (F : forall (p : nat -> bool) l m, Permutation l m -> Permutation (filter p l) (filter p m)).
  { clear. intros p l m H. induction H as [|x l m H IH|x y l|l m n H IH H' IH']; cbn; auto.
    - destruct (p x); auto.
    - destruct (p x), (p y); auto. apply perm_swap.
    - etransitivity; eauto. }
  apply F, processing_order_perm.
Qed.
