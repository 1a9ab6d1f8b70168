(** Proofs about dates of groups, arrays of observations, assigned values *)
From Coq Require Import String Ascii ZArith Bool Lia Permutation Sorted Arith List.
From Verif Require Import Base Base_Proofs GF_Model GF_Proofs Str_Model Fit_Model Fit_Spec Fit_Proofs Fit2_Proofs.
Import ListNotations.
Local Open Scope list_scope.

(** ** sizes of the groups *)
Lemma uniq_filter p l : uniq (filter p l) = filter p (uniq l).
Proof.
  induction l as [|x l IH]; simpl; [reflexivity|]. destruct (p x) eqn:E; simpl.
  - f_equal. rewrite IH. clear. induction (uniq l) as [|y m IH]; simpl; [reflexivity|].
    destruct (p y) eqn:E, (Z.eqb y x) eqn:F; simpl; rewrite ?E, ?F; simpl; first [exact IH|f_equal; exact IH].
  - rewrite IH. assert (H : forall m, filter p m = filter p (filter (fun y => negb (Z.eqb y x)) m)).
    { induction m as [|y m IHm]; simpl; [reflexivity|]. destruct (Z.eqb_spec y x) as [->|]; simpl.
      - rewrite E. exact IHm.
      - destruct (p y); [f_equal|]; exact IHm. }
    apply H.
Qed.

Lemma combine_map_self {A B} (g : A -> B) l : combine l (map g l) = map (fun x => (x, g x)) l.
Proof. induction l; simpl; congruence. Qed.

Lemma filter_map_comm {A B} (p : B -> bool) (g : A -> B) l : filter p (map g l) = map g (filter (fun x => p (g x)) l).
Proof. induction l as [|x l IH]; simpl; [reflexivity|]. destruct (p (g x)); simpl; congruence. Qed.

Lemma dates_of_map g index k : dates_of index (map g index) k = filter (fun t => Z.eqb (g t) k) (uniq index).
Proof.
  unfold dates_of. rewrite combine_map_self, filter_map_comm, map_map. simpl. rewrite map_id. apply uniq_filter.
Qed.

Lemma length_filter_count (g : Z -> Z) l k : length (filter (fun t => Z.eqb (g t) k) l) = count_occ Z.eq_dec (map g l) k.
Proof.
  induction l as [|x l IH]; simpl; [reflexivity|]. destruct (Z.eqb_spec (g x) k), (Z.eq_dec (g x) k); simpl; congruence.
Qed.

Lemma map_rank_uniq index bn : length bn = length (uniq index) ->
  map (fun t => nth (rank index t) bn 0%Z) (uniq index) = bn.
Proof.
  intros L. apply nth_ext with (d := 0%Z) (d' := 0%Z); [rewrite map_length; auto|].
  intros i. rewrite map_length. intros Hi. rewrite (nth_map_lt _ _ i 0%Z) by auto.
  unfold rank. rewrite number_of_nth; auto using NoDup_uniq.
Qed.

Lemma dates_count f index k : (1 <= f <= length (uniq index))%nat -> (k < length (uniq index) / f)%nat ->
  length (dates_of index (map (fun t => nth (rank index t) (block_numbers f (length (uniq index))) 0%Z) index) (Z.of_nat k)) =
  sizes f (length (uniq index)) k.
Proof.
  intros Hf Hk. rewrite dates_of_map, length_filter_count, map_rank_uniq by (apply block_numbers_length; exact Hf).
  apply block_numbers_count. exact Hk.
Qed.

Lemma block_numbers_range f n x : In x (block_numbers f n) -> (0 <= x < Z.of_nat (n / f))%Z.
Proof.
  unfold block_numbers. intros H. apply in_concat in H. destruct H as (s & Hs & Hx).
  apply in_map_iff in Hs. destruct Hs as (p & <- & Hp). apply repeat_spec in Hx. subst x.
  apply in_map_iff in Hp. destruct Hp as (k & <- & Hk). apply in_seq in Hk. simpl. lia.
Qed.

Lemma sorted_nth l i j : sorted l -> (i <= j)%nat -> (j < length l)%nat -> (nth i l 0 <= nth j l 0)%Z.
Proof.
  unfold sorted. intros H. revert i j. induction H as [|x l Hl IH Hx]; simpl; intros i j Hij Hj; [lia|].
  destruct i as [|i], j as [|j]; try lia.
  - rewrite Forall_forall in Hx. apply Hx, nth_In. lia.
  - apply IH; lia.
Qed.

Lemma sorted_of_nth l : (forall i j, (i <= j)%nat -> (j < length l)%nat -> (nth i l 0 <= nth j l 0)%Z) -> sorted l.
Proof.
  unfold sorted. induction l as [|x l IH]; intros H; constructor.
  - apply IH. intros i j Hij Hj. apply (H (S i) (S j)); simpl; lia.
  - apply Forall_forall. intros y Hy. apply In_nth with (d := 0%Z) in Hy. destruct Hy as (i & Hi & <-).
    apply (H 0%nat (S i)); simpl; lia.
Qed.

Lemma rank_mono index t u : sorted index -> In t index -> In u index -> (t <= u)%Z -> (rank index t <= rank index u)%nat.
Proof.
  intros Hs Ht Hu Hle. apply (proj2 (in_uniq _ _)) in Ht, Hu.
  destruct (number_nth t _ Ht) as [A B], (number_nth u _ Hu) as [C D]. fold (rank index t) in *. fold (rank index u) in *.
  destruct (Nat.le_gt_cases (rank index t) (rank index u)) as [|G]; auto.
  pose proof (sorted_nth (uniq index) (rank index u) (rank index t) (sorted_uniq _ Hs) ltac:(lia) B) as H.
  rewrite A, C in H. assert (t = u) by lia. subst u. lia.
Qed.

Lemma map_mono_sorted g l : sorted l -> (forall x y, In x l -> In y l -> (x <= y)%Z -> (g x <= g y)%Z) -> sorted (map g l).
Proof.
  unfold sorted. induction 1 as [|x l Hl IH Hx]; simpl; intros Hg; constructor.
  - apply IH. intros; apply Hg; auto.
  - rewrite Forall_forall in *. intros y Hy. apply in_map_iff in Hy. destruct Hy as (z & <- & Hz). apply Hg; auto.
Qed.

Lemma int_dyn_sorted f index : sorted index -> (1 <= f <= length (uniq index))%nat ->
  sorted (map (fun t => nth (rank index t) (block_numbers f (length (uniq index))) 0%Z) index).
Proof.
  intros Hs Hf. apply map_mono_sorted; auto. intros x y Hx Hy Hle.
  apply sorted_nth; [apply block_numbers_sorted|apply rank_mono; auto|].
  rewrite block_numbers_length by exact Hf. apply rank_lt; auto.
Qed.

(** ** offset strings *)
Lemma offset_perm nbins bin index : (forall t, In t index -> (bin t < nbins)%nat) ->
  Permutation (offset_dyn nbins bin index) (map (fun t => Z.of_nat (bin t)) index).
Proof.
  unfold offset_dyn. induction index as [|t l IH]; intros H; simpl.
  - clear. induction (seq 0 nbins) as [|b s IH]; simpl; auto.
  - rewrite <- IH by (intros; apply H; right; auto). clear IH.
    assert (Ht : In (bin t) (seq 0 nbins)) by (apply in_seq; specialize (H t (or_introl eq_refl)); lia).
    pose proof (seq_NoDup nbins 0) as Hn. revert Ht Hn. generalize (seq 0 nbins) as s. clear H.
    induction s as [|b s IH]; simpl; [tauto|]. intros Ht Hn. inversion Hn as [|? ? Hb Hs]; subst.
    destruct (Nat.eqb_spec (bin t) b) as [<-|n].
    + simpl. apply perm_skip, Permutation_app_head. assert (forall b, In b s -> Nat.eqb (bin t) b = false).
      { intros b' Hb'. apply Nat.eqb_neq. intros E0. subst b'. contradiction. }
      clear -H. induction s as [|b' s IH]; simpl; [auto|]. rewrite (H b' (or_introl eq_refl)).
      apply Permutation_app_head, IH. intros; apply H; right; auto.
    + rewrite IH; [|destruct Ht; congruence|auto]. apply Permutation_sym, Permutation_middle.
Qed.

Lemma offset_sorted nbins bin index : sorted (offset_dyn nbins bin index).
Proof.
  unfold offset_dyn.
  pose proof (sorted_blocks (map (fun b => (Z.of_nat b, length (filter (fun t => Nat.eqb (bin t) b) index))) (seq 0 nbins))) as H.
  rewrite !map_map in H. simpl in H. apply H, sorted_seqZ.
Qed.

Lemma offset_dyn_ok nbins bin index : sorted index -> (forall t, In t index -> (bin t < nbins)%nat) ->
  (forall t u, In t index -> In u index -> (t <= u)%Z -> (bin t <= bin u)%nat) ->
  offset_dyn nbins bin index = map (fun t => Z.of_nat (bin t)) index.
Proof.
  intros Hs Hb Hm. apply sorted_perm_eq; [apply offset_sorted| |apply offset_perm; auto].
  apply map_mono_sorted; auto. intros x y Hx Hy Hle. specialize (Hm x y Hx Hy Hle). lia.
Qed.

Lemma index_dyn_rank index : index_dyn index = map (fun t => Z.of_nat (rank index t)) index.
Proof.
  unfold index_dyn. apply map_ext. intros t. rewrite groupby_keys, map_id, <- uniq_first_occ, pos_number. reflexivity.
Qed.

(** ** arrays of observations *)
(** the rows of each combined group *)
Definition rowsets (gi : list Z) : list (list nat) :=
  map (fun g => filter (fun i => Z.eqb (nth i gi 0%Z) g) (seq 0 (length gi))) (uniq gi).

Lemma eqb_dec_filter {A} (f : A -> Z) k l : filter (fun x => if Z.eq_dec (f x) k then true else false) l =
  filter (fun x => Z.eqb (f x) k) l.
Proof. apply filter_ext. intros x. destruct (Z.eq_dec (f x) k), (Z.eqb_spec (f x) k); congruence. Qed.

Lemma map_nth_seq {A} (l : list A) d : map (fun i => nth i l d) (seq 0 (length l)) = l.
Proof.
  apply nth_ext with (d := d) (d' := d); [rewrite map_length, seq_length; auto|].
  intros i. rewrite map_length, seq_length. intros Hi. rewrite (nth_map_lt _ _ i 0%nat) by (rewrite seq_length; auto).
  rewrite seq_nth by auto. reflexivity.
Qed.

Lemma rowsets_groupby gi : map snd (groupby_unsorted Z.eq_dec (fun i => nth i gi 0%Z) (fun i => i) (seq 0 (length gi))) = rowsets gi.
Proof.
  rewrite groupby_closed, map_map, map_nth_seq, <- uniq_first_occ. simpl. apply map_ext. intros k.
  rewrite map_id. apply eqb_dec_filter.
Qed.

Lemma combine_nth_seq {A B} (l : list A) (m : list B) a b : length l = length m ->
  combine l m = map (fun i => (nth i l a, nth i m b)) (seq 0 (length l)).
Proof.
  intros H. apply nth_ext with (d := (a, b)) (d' := (a, b)); [rewrite map_length, seq_length, combine_length; lia|].
  intros i. rewrite combine_length. intros Hi. rewrite combine_nth by auto.
  rewrite (nth_map_lt _ _ i 0%nat) by (rewrite seq_length; lia). rewrite seq_nth by lia. reflexivity.
Qed.

Lemma map_fst_combine {A B} (l : list A) (m : list B) : length l = length m -> map fst (combine l m) = l.
Proof. revert m. induction l as [|x l IH]; destruct m; simpl; intros; try lia; [reflexivity|]. f_equal. apply IH. lia. Qed.

Lemma grouped_rows {A} gi (col : list A) d : length col = length gi ->
  grouped gi col = map (map (fun i => nth i col d)) (rowsets gi).
Proof.
  intros L. unfold grouped, rowsets. rewrite groupby_closed, map_map, map_fst_combine, <- uniq_first_occ by auto.
  rewrite map_map. apply map_ext. intros k. cbn [snd].
  rewrite (combine_nth_seq gi col 0%Z d) by auto. rewrite filter_map_comm, map_map. cbn [fst snd].
  rewrite (eqb_dec_filter (fun i => nth i gi 0%Z)). reflexivity.
Qed.

Lemma rowsets_nonempty gi s : In s (rowsets gi) -> s <> [].
Proof.
  unfold rowsets. intros H. apply in_map_iff in H. destruct H as (k & <- & Hk). apply (proj1 (in_uniq _ _)) in Hk.
  apply In_nth with (d := 0%Z) in Hk. destruct Hk as (i & Hi & E). intros N.
  assert (Hx : In i (filter (fun i => Z.eqb (nth i gi 0%Z) k) (seq 0 (length gi)))).
  { apply filter_In. split; [apply in_seq; lia|]. apply Z.eqb_eq. exact E. }
  rewrite N in Hx. destruct Hx.
Qed.

Lemma rowsets_ne gi : gi <> [] -> rowsets gi <> [].
Proof. destruct gi; [congruence|]. intros _. unfold rowsets. simpl. congruence. Qed.

(** padded rows *)
Definition pad (a : list (list nat)) : list (list nat) := map (fun s => s ++ repeat (last s 0%nat) (maxlen a - length s)) a.

Lemma last_map {A B} (f : A -> B) l d e : l <> [] -> last (map f l) e = f (last l d).
Proof.
  induction l as [|x l IH]; [congruence|]. intros _. destruct l as [|y l]; [reflexivity|].
  change (last (map f (x :: y :: l)) e) with (last (map f (y :: l)) e). rewrite IH by congruence. reflexivity.
Qed.
Lemma maxlen_map {A B} (f : A -> B) a : maxlen (map (map f) a) = maxlen a.
Proof. unfold maxlen. induction a as [|s a IH]; simpl; [reflexivity|]. rewrite map_length, IH. reflexivity. Qed.

Lemma rectangularize_map {A} (f : nat -> A) a : a <> [] -> (forall s, In s a -> s <> []) ->
  rectangularize (map (map f) a) None = Ok (map (map f) (pad a)).
Proof.
  intros Ha Hs. pose proof (rectangularize_ok (map (map f) a)) as H.
  assert (H1 : map (map f) a <> []) by (destruct a; simpl; congruence).
  assert (H2 : forall s, In s (map (map f) a) -> s <> []).
  { intros s Hs'. apply in_map_iff in Hs'. destruct Hs' as (t & <- & Ht). specialize (Hs t Ht). destruct t; simpl; congruence. }
  specialize (H H1 H2 (f 0%nat)). unfold rectangularize_mask in H. unfold rectangularize.
  destruct (rect_dim (map (map f) a) None) as [dd|]; cbn [bind] in *; [|discriminate].
  destruct (mapM (rect_row dd) (map (map f) a)) as [rows|]; cbn [bind] in H; [|discriminate].
  injection H as H _. rewrite H. f_equal. unfold pad. rewrite !map_map. apply map_ext_in. intros s Hin.
  rewrite map_app, map_rep, (last_map f s 0%nat), map_length, maxlen_map by auto. reflexivity.
Qed.

Lemma idx_assigns_ok gi : gi <> [] -> idx_assigns gi = Ok (pad (rowsets gi)).
Proof.
  intros H. unfold idx_assigns. rewrite rowsets_groupby.
  pose proof (rectangularize_map (fun i => i) (rowsets gi) (rowsets_ne gi H) (rowsets_nonempty gi)) as E.
  rewrite (map_ext _ (fun x => x)) in E by (intros; apply map_id). rewrite map_id in E.
  rewrite E. f_equal. rewrite (map_ext _ (fun x => x)) by (intros; apply map_id). apply map_id.
Qed.

Lemma get_data_ok {A} gi (col : list A) d : gi <> [] -> length col = length gi ->
  get_data gi col = Ok (map (map (fun i => nth i col d)) (pad (rowsets gi))).
Proof.
  intros H L. unfold get_data. rewrite (grouped_rows gi col d L).
  apply rectangularize_map; [apply rowsets_ne; auto|apply rowsets_nonempty].
Qed.

Lemma get_mask_ok gi index : gi <> [] -> length index = length gi ->
  get_mask gi index = Ok (map (fun s => repeat false (length s) ++ repeat true (maxlen (rowsets gi) - length s)) (rowsets gi)).
Proof.
  intros H L. unfold get_mask. rewrite (grouped_rows gi index 0%Z L).
  rewrite (rectangularize_ok _) with (d := 0%Z).
  - cbn [bind snd]. f_equal. rewrite map_map, maxlen_map. apply map_ext. intros s. unfold mask_row. rewrite map_length. reflexivity.
  - destruct (rowsets gi) eqn:E; simpl; [exfalso; exact (rowsets_ne gi H E)|congruence].
  - intros s Hs. apply in_map_iff in Hs. destruct Hs as (t & <- & Ht). apply rowsets_nonempty in Ht. destruct t; simpl; congruence.
Qed.

(** the entries that are not masked *)
Definition visible {A} (rows : list (list A)) (mask : list (list bool)) : list A := unmasked (concat rows) mask.

Lemma visible_pad gi : visible (pad (rowsets gi)) (map (fun s => repeat false (length s) ++ repeat true (maxlen (rowsets gi) - length s)) (rowsets gi)) = processing_order gi.
Proof.
  unfold visible, unmasked, pad, processing_order. fold (rowsets gi).
  generalize (maxlen (rowsets gi)). intros m. induction (rowsets gi) as [|s a IH]; simpl; [reflexivity|].
  rewrite combine_app_eq by (rewrite !app_length, !repeat_length; reflexivity).
  rewrite filter_app, map_app, IH. f_equal.
  rewrite combine_app_eq by (rewrite repeat_length; reflexivity). rewrite filter_app, map_app.
  assert (E1 : forall l : list nat, map fst (filter (fun p => negb (snd p)) (combine l (repeat false (length l)))) = l).
  { induction l; simpl; [reflexivity|f_equal; auto]. }
  assert (E2 : forall n (y : nat), map fst (filter (fun p => negb (snd p)) (combine (repeat y n) (repeat true n))) = []).
  { induction n; simpl; auto. }
  rewrite E1, E2, app_nil_r. reflexivity.
Qed.

Lemma visible_map {A B} (f : A -> B) rows mask : visible (map (map f) rows) mask = map f (visible rows mask).
Proof.
  unfold visible, unmasked. rewrite <- concat_map. generalize (concat rows) (concat mask). clear.
  induction l as [|x l IH]; intros [|m ms]; simpl; auto. destruct m; simpl; [|f_equal]; apply IH.
Qed.

Lemma processing_order_perm gi : Permutation (processing_order gi) (seq 0 (length gi)).
Proof.
  unfold processing_order. fold (rowsets gi). rewrite <- rowsets_groupby.
  rewrite groupby_perm, map_id. reflexivity.
Qed.

(** ** values of the parameters *)
Lemma put_nth {V} (x : list (option V)) ind v i : (i < length x)%nat ->
  nth i (put x ind v) None = if existsb (Nat.eqb i) ind then Some v else nth i x None.
Proof.
  intros H. unfold put. rewrite (nth_map_lt _ _ i 0%nat) by (rewrite seq_length; auto). rewrite seq_nth by auto. reflexivity.
Qed.
Lemma put_length {V} (x : list (option V)) ind v : length (put x ind v) = length x.
Proof. unfold put. rewrite map_length, seq_length. reflexivity. Qed.

Lemma puts_length {V} l (x : list (option V)) : length (fold_left (fun x p => put x (snd p) (fst p)) l x) = length x.
Proof. revert x. induction l as [|p l IH]; intros x; simpl; [reflexivity|]. rewrite IH, put_length. reflexivity. Qed.

(** values written into disjoint sets of rows *)
Lemma puts_nth {V} (dyn : list Z) (us : list Z) (i : nat) : forall (val : list V) (x : list (option V)) d,
  length x = length dyn -> (i < length dyn)%nat -> NoDup us -> (length us <= length val)%nat ->
  nth i (fold_left (fun x p => put x (snd p) (fst p))
     (combine val (map (fun g => filter (fun i => Z.eqb (nth i dyn 0%Z) g) (seq 0 (length dyn))) us)) x) None =
  if in_dec Z.eq_dec (nth i dyn 0%Z) us then Some (nth (number (nth i dyn 0%Z) us) val d) else nth i x None.
Proof.
  induction us as [|u us IH]; intros val x d L Hi Hn Hv.
  - destruct val; reflexivity.
  - destruct val as [|v val]; [simpl in Hv; lia|]. inversion Hn as [|? ? Hu Hus]; subst.
    cbn [map combine fold_left fst snd].
    rewrite IH with (d := d); [|rewrite put_length; auto|auto|auto|simpl in Hv; lia].
    rewrite put_nth by lia.
    assert (E : existsb (Nat.eqb i) (filter (fun j => Z.eqb (nth j dyn 0%Z) u) (seq 0 (length dyn))) = Z.eqb (nth i dyn 0%Z) u).
    { destruct (Z.eqb (nth i dyn 0%Z) u) eqn:E.
      - apply existsb_exists. exists i. split; [|apply Nat.eqb_refl]. apply filter_In. split; [apply in_seq; lia|auto].
      - destruct (existsb _ _) eqn:F; auto. apply existsb_exists in F. destruct F as (j & Hj & Ej).
        apply Nat.eqb_eq in Ej. subst j. apply filter_In in Hj. destruct Hj as [_ Hj]. congruence. }
    rewrite E. cbn [number]. destruct (Z.eqb_spec (nth i dyn 0%Z) u) as [Eu|Nu].
    + destruct (in_dec Z.eq_dec (nth i dyn 0%Z) us) as [j|j]; [exfalso; congruence|].
      destruct (in_dec Z.eq_dec (nth i dyn 0%Z) (u :: us)) as [k|k]; [reflexivity|exfalso; apply k; left; auto].
    + destruct (in_dec Z.eq_dec (nth i dyn 0%Z) us) as [j|j], (in_dec Z.eq_dec (nth i dyn 0%Z) (u :: us)) as [k|k]; auto.
      * exfalso; apply k; right; auto.
      * exfalso. destruct k; congruence.
Qed.

Lemma step_values_ok {V} dyn (val : list V) d i : (i < length dyn)%nat -> (length (uniq dyn) <= length val)%nat ->
  nth i (step_values dyn val) None = Some (nth (rank dyn (nth i dyn 0%Z)) val d).
Proof.
  intros Hi Hv. unfold step_values, param_assigns_dataset. rewrite rowsets_groupby.
  unfold rowsets. rewrite puts_nth with (d := d); auto using NoDup_uniq; [|apply repeat_length].
  destruct (in_dec Z.eq_dec (nth i dyn 0%Z) (uniq dyn)) as [j|j]; [reflexivity|].
  exfalso. apply j, in_uniq, nth_In. exact Hi.
Qed.

Lemma pad_in gi r c : (r < length (pad (rowsets gi)))%nat -> (c < length (nth r (pad (rowsets gi)) []))%nat ->
  (nth c (nth r (pad (rowsets gi)) []) 0 < length gi)%nat.
Proof.
  intros Hr Hc.
  assert (Hs : forall s i, In s (rowsets gi) -> In i s -> (i < length gi)%nat).
  { intros s i Hs Hi. apply in_map_iff in Hs. destruct Hs as (g & <- & _). apply filter_In in Hi.
    destruct Hi as [Hi _]. apply in_seq in Hi. lia. }
  pose proof (nth_In _ [] Hr) as Hin. unfold pad in Hin at 1. apply in_map_iff in Hin. destruct Hin as (s & E & Hin).
  change (map _ (rowsets gi)) with (pad (rowsets gi)) in E. rewrite <- E in Hc |- *. pose proof (nth_In _ 0%nat Hc) as Hi.
  apply in_app_or in Hi. destruct Hi as [Hi|Hi].
  - apply (Hs s); auto.
  - apply repeat_spec in Hi. rewrite Hi. apply (Hs s); auto.
    pose proof (rowsets_nonempty gi s Hin) as Hne. clear -Hne. destruct s as [|x s]; [congruence|].
    destruct (exists_last Hne) as (l & y & ->). rewrite last_last. apply in_or_app. right. left. reflexivity.
Qed.

Lemma nth2_map {A B} (f : A -> B) rows r c d e : (r < length rows)%nat -> (c < length (nth r rows []))%nat ->
  nth c (nth r (map (map f) rows) []) e = f (nth c (nth r rows []) d).
Proof. intros Hr Hc. rewrite (nth_map_lt (map f) rows r []) by auto. apply nth_map_lt. auto. Qed.
