(** Proofs about the model of rt1/general_functions.py *)
From Coq Require Import List ZArith Reals Bool Lia Lra Permutation Sorted Arith.
From Verif Require Import Base Base_Proofs GF_Model.
Import ListNotations.

(** ** rectangularize *)

Lemma mapM_ok_inv {A B} (f : A -> res B) l ys :
  mapM f l = Ok ys -> Forall2 (fun x y => f x = Ok y) l ys.
Proof.
  revert ys. induction l as [|x l IH]; simpl; intros ys H.
  - inversion H; constructor.
  - destruct (f x) eqn:E; simpl in H; [|discriminate].
    destruct (mapM f l) eqn:E2; simpl in H; [|discriminate].
    inversion H; subst. constructor; auto.
Qed.

Lemma mapM_ok {A B} (f : A -> res B) l ys :
  Forall2 (fun x y => f x = Ok y) l ys -> mapM f l = Ok ys.
Proof.
  induction 1 as [|x y l ys E _ IH]; simpl; [reflexivity|].
  rewrite E; simpl. rewrite IH; reflexivity.
Qed.

Lemma Ok_inj {A} (a b : A) : Ok a = Ok b -> a = b.
Proof. congruence. Qed.

Lemma maxlen_ge {A} (a : list (list A)) s : In s a -> length s <= maxlen a.
Proof.
  induction a as [|x a IH]; simpl; [tauto|].
  intros [->|H]; [lia|]. specialize (IH H). lia.
Qed.

Lemma maxlen_attained {A} (a : list (list A)) : a <> [] -> exists s, In s a /\ length s = maxlen a.
Proof.
  induction a as [|x a IH]; simpl; [congruence|]. intros _.
  destruct a as [|y a'].
  - exists x; simpl; split; auto; lia.
  - destruct IH as (s & Hs & E); [congruence|].
    destruct (Nat.max_spec (length x) (maxlen (y :: a'))) as [[_ ->]|[_ ->]].
    + exists s; auto.
    + exists x; auto.
Qed.

Lemma rev_last {A} (s : list A) x r d : rev s = x :: r -> last s d = x.
Proof.
  intros H. assert (s = rev r ++ [x]) as ->.
  { rewrite <- (rev_involutive s), H; reflexivity. }
  apply last_last.
Qed.

Lemma rect_row_spec {A} dim (s : list A) d : s <> [] -> length s <= dim ->
  rect_row dim s = Ok (s ++ repeat (last s d) (dim - length s)).
Proof.
  intros Hne Hle. unfold rect_row.
  destruct (Nat.ltb dim (length s)) eqn:E; [apply Nat.ltb_lt in E; lia|].
  destruct (rev s) as [|x r] eqn:Er.
  - exfalso. apply Hne. rewrite <- (rev_involutive s), Er; reflexivity.
  - rewrite (rev_last s x r d Er). reflexivity.
Qed.

(** keep the entries whose mask is false *)
Definition unmask {A} (row : list A) (mask : list bool) : list A :=
  map fst (filter (fun p => negb (snd p)) (combine row mask)).

Lemma combine_app_eq {A B} (l1 l2 : list A) (m1 m2 : list B) : length l1 = length m1 ->
  combine (l1 ++ l2) (m1 ++ m2) = combine l1 m1 ++ combine l2 m2.
Proof.
  revert m1. induction l1 as [|x l1 IH]; destruct m1; simpl; intros H; try discriminate; auto.
  f_equal; auto.
Qed.

Lemma unmask_row {A} dim (s : list A) x : length s <= dim ->
  unmask (s ++ repeat x (dim - length s)) (mask_row dim s) = s.
Proof.
  intros _. unfold unmask, mask_row.
  rewrite combine_app_eq by (rewrite repeat_length; reflexivity).
  rewrite filter_app, map_app.
  assert (E1 : forall l : list A, map fst (filter (fun p => negb (snd p)) (combine l (repeat false (length l)))) = l).
  { induction l; simpl; [reflexivity|f_equal; auto]. }
  assert (E2 : forall n (y : A), map fst (filter (fun p => negb (snd p)) (combine (repeat y n) (repeat true n))) = []).
  { induction n; simpl; auto. }
  rewrite E1, E2, app_nil_r; reflexivity.
Qed.

Lemma rectangularize_ok {A} (array : list (list A)) : array <> [] -> (forall s, In s array -> s <> []) ->
  forall d, rectangularize_mask array None =
  Ok (map (fun s => s ++ repeat (last s d) (maxlen array - length s)) array,
      map (mask_row (maxlen array)) array).
Proof.
  intros Hne Hrows d. unfold rectangularize_mask.
  assert (E : rect_dim array None = Ok (maxlen array)) by (destruct array; [congruence|reflexivity]).
  rewrite E; simpl.
  rewrite (mapM_ok _ array (map (fun s => s ++ repeat (last s d) (maxlen array - length s)) array)).
  - reflexivity.
  - assert (Hle : forall s, In s array -> length s <= maxlen array) by (intros; apply maxlen_ge; auto).
    generalize (maxlen array) Hle. clear E Hne. intros m Hm. clear Hle. revert Hm Hrows.
    induction array as [|s a IH]; intros Hm Hrows; constructor.
    + apply rect_row_spec; [apply Hrows; left; auto|apply Hm; left; auto].
    + apply IH; intros; [apply Hm|apply Hrows]; right; auto.
Qed.

Lemma rectangularize_empty_row {A} (array : list (list A)) dim :
  In [] array -> exists e, rectangularize array dim = Err e.
Proof.
  intros H. unfold rectangularize.
  destruct (rect_dim array dim) as [d|e]; simpl; [|eauto].
  clear dim. induction array as [|s a IH]; [destruct H|]. simpl.
  destruct H as [->|H].
  - unfold rect_row; simpl. destruct d; simpl; eauto.
  - destruct (IH H) as [e E]. rewrite E. destruct (rect_row d s); simpl; eauto.
Qed.

(** ** meandatetime *)
Open Scope Z_scope.

Lemma fold_add_acc l a : fold_left Z.add l a = a + fold_left Z.add l 0.
Proof.
  revert a. induction l as [|x l IH]; intros a; simpl; [lia|].
  rewrite IH, (IH x). lia.
Qed.

Definition zsum (l : list Z) : Z := fold_right Z.add 0 l.

Lemma fold_add_zsum l : fold_left Z.add l 0 = zsum l.
Proof. induction l; simpl; [reflexivity|]. rewrite fold_add_acc, IHl; reflexivity. Qed.

Lemma quot_upper d n D : 0 < n -> d <= D -> 0 <= D -> n * Z.quot d n <= D.
Proof.
  intros Hn Hd HD. destruct (Z_le_gt_dec 0 d) as [H|H].
  - pose proof (Z.mul_quot_le d n H ltac:(lia)). lia.
  - assert (Z.quot d n <= 0); [|nia].
    replace d with (- (- d)) by lia. rewrite Z.quot_opp_l by lia.
    pose proof (Z.quot_pos (-d) n ltac:(lia) Hn). lia.
Qed.

Lemma quot_lower d n D : 0 < n -> - D <= d -> 0 <= D -> - D <= n * Z.quot d n.
Proof.
  intros Hn Hd HD. pose proof (quot_upper (- d) n D Hn ltac:(lia) HD) as H.
  rewrite Z.quot_opp_l in H by lia. lia.
Qed.

Lemma quot_error d n : 0 < n -> Z.abs (n * Z.quot d n - d) <= n - 1.
Proof.
  intros Hn. pose proof (Z.quot_rem' d n).
  pose proof (Z.rem_bound_abs d n ltac:(lia)). lia.
Qed.

Lemma mean_shape x0 x1 r :
  meandatetime (x0 :: x1 :: r) =
  Ok (x0 - zsum (map (fun xi => Z.quot (x0 - xi) (Z.of_nat (length (x0 :: x1 :: r)))) (x1 :: r))).
Proof.
  unfold meandatetime. rewrite fold_add_zsum. reflexivity.
Qed.

Lemma zsum_upper n D l : 0 < n -> 0 <= D -> (forall d, In d l -> d <= D) ->
  n * zsum (map (fun d => Z.quot d n) l) <= Z.of_nat (length l) * D.
Proof.
  intros Hn HD. induction l as [|d l IH]; intros Hl; [simpl; lia|].
  assert (H1 := quot_upper d n D Hn (Hl d (or_introl eq_refl)) HD).
  assert (H2 := IH (fun d' H => Hl d' (or_intror H))).
  change (length (d :: l)) with (S (length l)).
  rewrite Nat2Z.inj_succ. cbn [map zsum fold_right] in *. unfold zsum in H2. lia.
Qed.

Lemma zsum_opp n l : 0 < n -> zsum (map (fun d => Z.quot (- d) n) l) = - zsum (map (fun d => Z.quot d n) l).
Proof.
  intros Hn. induction l as [|d l IH]; [reflexivity|]. cbn [map zsum fold_right] in *.
  unfold zsum in IH. rewrite IH, Z.quot_opp_l by lia. lia.
Qed.

Lemma map_sub_quot x0 n l :
  map (fun xi => Z.quot (x0 - xi) n) l = map (fun d => Z.quot d n) (map (fun xi => x0 - xi) l).
Proof. rewrite map_map; reflexivity. Qed.

Lemma meandatetime_range x m lo hi : meandatetime x = Ok m ->
  (forall t, In t x -> lo <= t <= hi) -> lo <= m <= hi.
Proof.
  destruct x as [|x0 [|x1 r]]; intros H Hb; [discriminate| |].
  - inversion H; subst. apply Hb; left; auto.
  - rewrite mean_shape in H. apply Ok_inj in H. subst m.
    set (n := Z.of_nat (length (x0 :: x1 :: r))).
    assert (Hn : n = Z.of_nat (length (x1 :: r)) + 1) by (unfold n; simpl length; lia).
    assert (Hn1 : 1 <= Z.of_nat (length (x1 :: r))) by (simpl length; lia).
    assert (H0 : lo <= x0 <= hi) by (apply Hb; left; auto).
    rewrite map_sub_quot.
    split.
    + assert (Hu := zsum_upper n (x0 - lo) (map (fun xi => x0 - xi) (x1 :: r)) ltac:(lia) ltac:(lia)).
      rewrite map_length in Hu.
      assert (forall d, In d (map (fun xi => x0 - xi) (x1 :: r)) -> d <= x0 - lo) as H2.
      { intros d Hd. apply in_map_iff in Hd as (t & <- & Ht).
        assert (lo <= t <= hi) by (apply Hb; right; auto). lia. }
      specialize (Hu H2). revert Hu. generalize (zsum (map (fun d => d ÷ n) (map (fun xi => x0 - xi) (x1 :: r)))).
      intros S Hu. assert (Hm : n * S <= n * (x0 - lo)) by nia.
      apply Z.mul_le_mono_pos_l in Hm; lia.
    + assert (Hu := zsum_upper n (hi - x0) (map Z.opp (map (fun xi => x0 - xi) (x1 :: r))) ltac:(lia) ltac:(lia)).
      rewrite !map_length in Hu.
      assert (forall d, In d (map Z.opp (map (fun xi => x0 - xi) (x1 :: r))) -> d <= hi - x0) as H2.
      { intros d Hd. rewrite map_map in Hd. apply in_map_iff in Hd as (t & <- & Ht).
        assert (lo <= t <= hi) by (apply Hb; right; auto). lia. }
      specialize (Hu H2). rewrite (map_map Z.opp) in Hu. rewrite zsum_opp in Hu by lia.
      revert Hu. generalize (zsum (map (fun d => d ÷ n) (map (fun xi => x0 - xi) (x1 :: r)))).
      intros S Hu. assert (Hm : n * - S <= n * (hi - x0)) by nia.
      apply Z.mul_le_mono_pos_l in Hm; lia.
Qed.

Lemma zsum_sub x0 l : zsum (map (fun xi => x0 - xi) l) = Z.of_nat (length l) * x0 - zsum l.
Proof.
  induction l as [|d l IH]; [simpl; lia|].
  change (length (d :: l)) with (S (length l)).
  rewrite Nat2Z.inj_succ. cbn [map zsum fold_right] in *. unfold zsum in *. lia.
Qed.

Lemma zsum_error n l : 0 < n ->
  Z.abs (n * zsum (map (fun d => Z.quot d n) l) - zsum l) <= Z.of_nat (length l) * (n - 1).
Proof.
  intros Hn. induction l as [|d l IH]; [simpl; lia|].
  assert (H1 := quot_error d n Hn).
  change (length (d :: l)) with (S (length l)).
  rewrite Nat2Z.inj_succ. cbn [map zsum fold_right] in *. unfold zsum in *. lia.
Qed.

Lemma meandatetime_error x m : meandatetime x = Ok m ->
  let n := Z.of_nat (length x) in
  Z.abs (n * m - zsum x) <= (n - 1) * (n - 1).
Proof.
  destruct x as [|x0 [|x1 r]]; intros H; [discriminate| |].
  - inversion H; subst. cbn -[Z.mul]. lia.
  - rewrite mean_shape in H. apply Ok_inj in H. subst m.
    set (n := Z.of_nat (length (x0 :: x1 :: r))). cbv zeta.
    set (l := x1 :: r).
    assert (Hn : n = Z.of_nat (length l) + 1) by (unfold n, l; simpl length; lia).
    rewrite map_sub_quot.
    pose proof (zsum_error n (map (fun xi => x0 - xi) l) ltac:(lia)) as He.
    rewrite map_length in He. rewrite zsum_sub in He.
    change (zsum (x0 :: l)) with (x0 + zsum l). nia.
Qed.

Lemma meandatetime_exact x0 r m : meandatetime (x0 :: r) = Ok m ->
  let n := Z.of_nat (length (x0 :: r)) in
  (forall t, In t r -> (n | x0 - t)) -> n * m = zsum (x0 :: r).
Proof.
  destruct r as [|x1 r]; intros H; cbv zeta.
  - inversion H; subst. intros _. cbn -[Z.mul]. lia.
  - rewrite mean_shape in H. apply Ok_inj in H. subst m.
    set (n := Z.of_nat (length (x0 :: x1 :: r))).
    set (l := x1 :: r). intros Hd.
    assert (Hn : n = Z.of_nat (length l) + 1) by (unfold n, l; simpl length; lia).
    assert (E : n * zsum (map (fun xi => Z.quot (x0 - xi) n) l) = zsum (map (fun xi => x0 - xi) l)).
    { clear Hn. assert (0 < n) by (unfold n; simpl length; lia). clearbody n l.
      induction l as [|t l IH]; [simpl; lia|].
      cbn [map zsum fold_right]. unfold zsum in IH.
      rewrite Z.mul_add_distr_l, IH by (intros; apply Hd; right; auto).
      destruct (Hd t (or_introl eq_refl)) as [k Hk]. rewrite Hk, Z.quot_mul by lia. lia. }
    rewrite zsum_sub in E. change (zsum (x0 :: l)) with (x0 + zsum l).
    replace (n * (x0 - zsum (map (fun xi => Z.quot (x0 - xi) n) l)))
      with (n * x0 - n * zsum (map (fun xi => Z.quot (x0 - xi) n) l)) by lia.
    rewrite E. lia.
Qed.

Lemma meandatetime_shift x m c : meandatetime x = Ok m ->
  meandatetime (map (fun t => t + c) x) = Ok (m + c).
Proof.
  destruct x as [|x0 [|x1 r]]; intros H; [discriminate| |].
  - inversion H; subst; reflexivity.
  - rewrite mean_shape in H. apply Ok_inj in H. subst m.
    cbn [map]. rewrite mean_shape. f_equal. cbn [length]. rewrite map_length.
    change (x1 + c :: map (fun t => t + c) r) with (map (fun t => t + c) (x1 :: r)).
    rewrite map_map.
    rewrite (map_ext (fun x => (x0 + c - (x + c)) ÷ Z.of_nat (S (S (length r))))
                     (fun xi => (x0 - xi) ÷ Z.of_nat (S (S (length r))))).
    + cbn [map]; lia.
    + intros t. f_equal. lia.
Qed.
Close Scope Z_scope.

(** ** dBsig0convert *)
Open Scope R_scope.

Lemma ln10_pos : 0 < ln 10.
Proof. rewrite <- ln_1. apply ln_increasing; lra. Qed.

Lemma pow10_log10 x : 0 < x -> pow10 (10 * log10 x / 10) = x.
Proof.
  intros H. unfold pow10, log10, Rpower. pose proof ln10_pos.
  replace (10 * (ln x / ln 10) / 10 * ln 10) with (ln x) by (field; lra).
  apply exp_ln; auto.
Qed.

Lemma log10_pow10 x : 10 * log10 (pow10 (x / 10)) = x.
Proof.
  unfold pow10, log10, Rpower. pose proof ln10_pos. rewrite ln_exp. field; lra.
Qed.

Lemma pow10_pos x : 0 < pow10 x.
Proof. apply exp_pos. Qed.

(** ** pairwise *)
Lemma heads_skipn_Some {A} (l : list A) n k :
  (k + n <= length l)%nat -> heads (map (fun i => skipn i l) (seq n k)) = Some (firstn k (skipn n l)).
Proof.
  revert n. induction k as [|k IH]; intros n H; [reflexivity|].
  cbn [seq map heads]. destruct (skipn n l) as [|x t] eqn:E.
  - assert (length (skipn n l) = length l - n)%nat by apply skipn_length.
    rewrite E in H0; simpl in H0; lia.
  - rewrite IH by lia. simpl. f_equal. f_equal.
    assert (skipn 1 (skipn n l) = t) as <- by (rewrite E; reflexivity).
    rewrite skipn_skipn. f_equal. 
Qed.

Lemma heads_skipn_None {A} (l : list A) n k :
  (length l < k + n)%nat -> (0 < k)%nat -> heads (map (fun i => skipn i l) (seq n k)) = None.
Proof.
  revert n. induction k as [|k IH]; intros n H Hk; [lia|].
  cbn [seq map heads]. destruct (skipn n l) as [|x t] eqn:E; [reflexivity|].
  destruct k as [|k].
  - exfalso. assert (length (skipn n l) = length l - n)%nat by apply skipn_length.
    rewrite E in H0; simpl in H0; lia.
  - rewrite IH by lia. reflexivity.
Qed.

(** the windows of length k starting at positions n, n+1, ... *)
Definition windows {A} (l : list A) (k : nat) : list (list A) :=
  map (fun i => firstn k (skipn i l)) (seq 0 (length l + 1 - k)).

Lemma map_tl_skipn {A} (l : list A) n k :
  map (@tl A) (map (fun i => skipn i l) (seq n k)) = map (fun i => skipn i l) (seq (S n) k).
Proof.
  rewrite map_map, <- seq_shift, map_map. apply map_ext. intros i.
  clear n k. revert l. induction i as [|i IH]; intros l; [destruct l; reflexivity|].
  destruct l as [|x l]; [reflexivity|]. exact (IH l).
Qed.

Lemma zip_star_aux_windows {A} (l : list A) k n : (n <= length l)%nat ->
  zip_star_aux (skipn n l) (map (fun i => skipn i l) (seq (S n) k)) =
  map (fun i => firstn (S k) (skipn i l)) (seq n (length l - k - n)).
Proof.
  remember (length l - n)%nat as m eqn:Em. revert n Em.
  induction m as [|m IH]; intros n Em Hn.
  - rewrite skipn_all2 by lia. replace (length l - k - n)%nat with 0%nat by lia. reflexivity.
  - destruct (skipn n l) as [|x t] eqn:E.
    { assert (length (skipn n l) = length l - n)%nat by apply skipn_length.
      rewrite E in H; simpl in H; lia. }
    assert (Ht : t = skipn (S n) l).
    { assert (skipn 1 (skipn n l) = t) as <- by (rewrite E; reflexivity).
      rewrite skipn_skipn. f_equal. }
    cbn [zip_star_aux].
    destruct (Nat.le_gt_cases (k + S n) (length l)) as [Hk|Hk].
    + rewrite heads_skipn_Some by lia.
      rewrite map_tl_skipn. rewrite Ht at 1. rewrite IH by lia.
      replace (length l - k - n)%nat with (S (length l - k - S n)) by lia.
      cbn [seq map]. f_equal. rewrite E, <- Ht. reflexivity.
    + destruct k as [|k]; [lia|].
      rewrite heads_skipn_None by lia.
      replace (length l - S k - n)%nat with 0%nat by lia. reflexivity.
Qed.

Lemma combine_seq_repeat {A} (l : A) n k :
  map (fun p => skipn (fst p) (snd p)) (combine (seq n k) (repeat ([l]) k)) =
  map (fun p => skipn (fst p) (snd p)) (combine (seq n k) (repeat ([l]) k)).
Proof. reflexivity. Qed.

Lemma combine_seq_repeat_skip {A} (l : list A) n k :
  map (fun p => skipn (fst p) (snd p)) (combine (seq n k) (repeat l k)) = map (fun i => skipn i l) (seq n k).
Proof. revert n. induction k as [|k IH]; intros n; simpl; [reflexivity|]. f_equal; auto. Qed.

Lemma pairwise_windows {A} (l : list A) k : (1 <= k)%nat -> pairwise l k = windows l k.
Proof.
  intros Hk. unfold pairwise, windows. rewrite repeat_length, combine_seq_repeat_skip.
  destruct k as [|k]; [lia|]. cbn [seq map zip_star].
  rewrite (zip_star_aux_windows l k 0) by lia. f_equal. f_equal. lia.
Qed.

(** ** split_into *)
Lemma split_into_sizes {A} (l : list A) (ns : list nat) :
  exists out, split_into l (map (fun n => Some (Z.of_nat n)) ns) = Ok out /\
    length out = length ns /\
    concat out = firstn (fold_right plus 0%nat ns) l /\
    (forall i, (i < length ns)%nat ->
       nth i out [] = firstn (nth i ns 0%nat) (skipn (fold_right plus 0%nat (firstn i ns)) l)).
Proof.
  revert l. induction ns as [|n ns IH]; intros l; cbn [map split_into].
  - exists []. repeat split; auto. simpl. intros i H; lia.
  - destruct (Z.ltb_spec (Z.of_nat n) 0); [lia|]. rewrite Nat2Z.id.
    destruct (IH (skipn n l)) as (out & E & Hlen & Hc & Hi). rewrite E. cbn [bind].
    exists (firstn n l :: out). repeat split; auto.
    + simpl; lia.
    + cbn [concat fold_right]. rewrite Hc.
      rewrite <- (firstn_skipn n (firstn (n + fold_right Nat.add 0%nat ns) l)).
      rewrite firstn_firstn, Nat.min_l by lia. rewrite skipn_firstn_comm.
      f_equal. f_equal. lia.
    + intros [|i] Hlt; [reflexivity|]. cbn [nth firstn fold_right]. simpl in Hlt.
      rewrite Hi by lia. rewrite skipn_skipn. f_equal. f_equal. lia.
Qed.

Lemma split_into_none {A} (l : list A) (ns : list nat) rest :
  exists out, split_into l (map (fun n => Some (Z.of_nat n)) ns ++ None :: rest) = Ok out /\
    length out = S (length ns) /\ concat out = l /\
    last out [] = skipn (fold_right plus 0%nat ns) l.
Proof.
  revert l. induction ns as [|n ns IH]; intros l; cbn [map split_into app].
  - exists [l]. simpl. rewrite app_nil_r. auto.
  - destruct (Z.ltb_spec (Z.of_nat n) 0); [lia|]. rewrite Nat2Z.id.
    destruct (IH (skipn n l)) as (out & E & Hlen & Hc & Hl). rewrite E. cbn [bind].
    exists (firstn n l :: out). repeat split; auto.
    + simpl; lia.
    + cbn [concat]. rewrite Hc. apply firstn_skipn.
    + destruct out as [|o out]; [simpl in Hlen; lia|]. cbn [last] in *. rewrite Hl.
      cbn [fold_right]. rewrite skipn_skipn. f_equal. lia.
Qed.

Lemma split_into_negative {A} (l : list A) pre z post :
  Forall (fun s => s <> None) pre -> (z < 0)%Z -> split_into l (pre ++ Some z :: post) = Err ValueError.
Proof.
  intros Hp Hz. revert l. induction pre as [|s pre IH]; intros l; cbn [app split_into].
  - destruct (Z.ltb_spec z 0); [reflexivity|lia].
  - inversion Hp; subst. destruct s as [s|]; [|congruence].
    destruct (Z.ltb_spec s 0); [reflexivity|]. rewrite IH by auto. reflexivity.
Qed.

(** ** scale *)
Lemma rmin_list_spec x0 r : (forall y, In y (x0 :: r) -> rmin_list x0 r <= y) /\ In (rmin_list x0 r) (x0 :: r).
Proof.
  unfold rmin_list. revert x0. induction r as [|x r IH]; intros x0; simpl.
  - split; auto. intros y [->|[]]; lra.
  - destruct (IH (Rmin x0 x)) as [H1 H2]. split.
    + intros y [->|[->|H]].
      * eapply Rle_trans; [apply H1; left; reflexivity|apply Rmin_l].
      * eapply Rle_trans; [apply H1; left; reflexivity|apply Rmin_r].
      * apply H1; right; auto.
    + destruct H2 as [H2|H2]; auto. rewrite <- H2. unfold Rmin. destruct (Rle_dec x0 x); auto.
Qed.

Lemma rmax_list_spec x0 r : (forall y, In y (x0 :: r) -> y <= rmax_list x0 r) /\ In (rmax_list x0 r) (x0 :: r).
Proof.
  unfold rmax_list. revert x0. induction r as [|x r IH]; intros x0; simpl.
  - split; auto. intros y [->|[]]; lra.
  - destruct (IH (Rmax x0 x)) as [H1 H2]. split.
    + intros y [->|[->|H]].
      * eapply Rle_trans; [apply Rmax_l|apply H1; left; reflexivity].
      * eapply Rle_trans; [apply Rmax_r|apply H1; left; reflexivity].
      * apply H1; right; auto.
    + destruct H2 as [H2|H2]; auto. rewrite <- H2. unfold Rmax. destruct (Rle_dec x0 x); auto.
Qed.

Lemma scale1_affine a b c d x : b - a <> 0 -> scale1 (a, b) (c, d) x = c + (x - a) / (b - a) * (d - c).
Proof. intros H. unfold scale1; simpl. field. auto. Qed.

Lemma scale1_inv a b c d x : b - a <> 0 -> d - c <> 0 -> scale1 (c, d) (a, b) (scale1 (a, b) (c, d) x) = x.
Proof. intros H H2. unfold scale1; simpl. field. auto. Qed.

Close Scope R_scope.
Open Scope Z_scope.
(** ** dt_to_hms *)
Lemma dt_to_hms_spec days secs : 0 <= secs < 86400 ->
  forall d h m s, dt_to_hms days secs = (d, h, m, s) ->
  d = days /\ 0 <= h < 24 /\ 0 <= m < 60 /\ 0 <= s < 60 /\
  d * 86400 + h * 3600 + m * 60 + s = days * 86400 + secs.
Proof.
  intros H d h m s E. unfold dt_to_hms in E. injection E as <- <- <- <-.
  pose proof (Z.div_mod secs 3600 ltac:(lia)).
  pose proof (Z.mod_pos_bound secs 3600 ltac:(lia)).
  pose proof (Z.div_mod (secs mod 3600) 60 ltac:(lia)).
  pose proof (Z.mod_pos_bound (secs mod 3600) 60 ltac:(lia)).
  repeat split; try lia.
Qed.
Close Scope Z_scope.

(** ** groupby_unsorted *)
Section GroupByFacts.
  Context {A K B : Type} (keq : forall x y : K, {x = y} + {x <> y}).
  Variables (key : A -> K) (get : A -> B).

  (** distinct elements in order of first occurrence *)
  Fixpoint first_occ (seen l : list K) : list K :=
    match l with
    | [] => []
    | x :: r => if in_dec keq x seen then first_occ seen r else x :: first_occ (x :: seen) r
    end.

  Lemma first_occ_ext l : forall s1 s2, (forall x, In x s1 <-> In x s2) -> first_occ s1 l = first_occ s2 l.
  Proof.
    induction l as [|x l IH]; intros s1 s2 H; simpl; [reflexivity|].
    destruct (in_dec keq x s1) as [i|i], (in_dec keq x s2) as [j|j].
    - auto.
    - exfalso. apply j, H, i.
    - exfalso. apply i, H, j.
    - f_equal. apply IH. intros y; simpl. rewrite H. tauto.
  Qed.

  Lemma dget_setdefault k (b : B) d k2 : dget keq k2 (setdefault_append keq k b d) =
    if keq k2 k then Some (match dget keq k d with Some l => l ++ [b] | None => [b] end)
    else dget keq k2 d.
  Proof.
    unfold setdefault_append. destruct (keq k2 k) as [->|Hn].
    - destruct (dget keq k d); apply dget_dset_same.
    - destruct (dget keq k d); apply dget_dset_other; auto.
  Qed.

  Lemma keys_setdefault k (b : B) d : keys (setdefault_append keq k b d) =
    if in_dec keq k (keys d) then keys d else keys d ++ [k].
  Proof. unfold setdefault_append. destruct (dget keq k d); apply keys_dset. Qed.

  Lemma groupby_fold_keys (a : list A) (d : dict K (list B)) :
    keys (fold_left (fun d item => setdefault_append keq (key item) (get item) d) a d) =
    keys d ++ first_occ (keys d) (map key a).
  Proof.
    revert d. induction a as [|x a IH]; intros d; simpl; [rewrite app_nil_r; reflexivity|].
    rewrite IH, keys_setdefault. destruct (in_dec keq (key x) (keys d)); [reflexivity|].
    rewrite <- app_assoc. simpl. f_equal. f_equal. apply first_occ_ext.
    intros y. rewrite in_app_iff. simpl. tauto.
  Qed.

  Lemma groupby_fold_get (a : list A) (d : dict K (list B)) k :
    dget keq k (fold_left (fun d item => setdefault_append keq (key item) (get item) d) a d) =
    match dget keq k d, map get (filter (fun x => if keq (key x) k then true else false) a) with
    | None, [] => None
    | o, l => Some (match o with Some l0 => l0 | None => [] end ++ l)
    end.
  Proof.
    revert d. induction a as [|x a IH]; intros d; cbn [fold_left filter].
    - destruct (dget keq k d); simpl; [rewrite app_nil_r|]; reflexivity.
    - rewrite IH, dget_setdefault.
      destruct (keq k (key x)) as [->|Hn].
      + destruct (keq (key x) (key x)); [|congruence]. cbn [map].
        destruct (dget keq (key x) d); [rewrite <- app_assoc|]; reflexivity.
      + destruct (keq (key x) k); [congruence|]. reflexivity.
  Qed.

  Lemma groupby_keys a : keys (groupby_unsorted keq key get a) = first_occ [] (map key a).
  Proof. unfold groupby_unsorted. rewrite groupby_fold_keys. reflexivity. Qed.

  Lemma in_first_occ l : forall seen x, In x (first_occ seen l) <-> In x l /\ ~ In x seen.
  Proof.
    induction l as [|y l IH]; intros seen x; simpl; [tauto|].
    destruct (in_dec keq y seen) as [i|i].
    - rewrite IH. split; [tauto|]. intros [[->|H] Hn]; tauto.
    - simpl. rewrite IH. simpl. split.
      + intros [->|[H1 H2]]; [tauto|]. split; [tauto|]. tauto.
      + intros [[->|H] Hn]; [tauto|]. destruct (keq y x); [tauto|]. right. split; auto. intros [|]; auto.
  Qed.

  Lemma NoDup_first_occ l : forall seen, NoDup (first_occ seen l).
  Proof.
    induction l as [|y l IH]; intros seen; simpl; [constructor|].
    destruct (in_dec keq y seen) as [i|i]; auto.
    constructor; auto. rewrite in_first_occ. simpl. tauto.
  Qed.

  Lemma groupby_get a k : dget keq k (groupby_unsorted keq key get a) =
    match map get (filter (fun x => if keq (key x) k then true else false) a) with
    | [] => None | l => Some l end.
  Proof. unfold groupby_unsorted. rewrite groupby_fold_get. simpl. destruct (map _ _); reflexivity. Qed.

  Lemma concat_map_perm (d : dict K (list B)) k b :
    Permutation (concat (map snd (setdefault_append keq k b d))) (b :: concat (map snd d)).
  Proof.
    unfold setdefault_append. destruct (dget keq k d) as [l|] eqn:E.
    - revert E. induction d as [|[k' v'] r IH]; simpl; [discriminate|].
      destruct (keq k k') as [->|Hn]; intros E.
      + inversion E; subst. simpl. rewrite <- app_assoc. simpl. symmetry. apply Permutation_middle.
      + simpl. rewrite IH by auto. symmetry. apply Permutation_middle.
    - revert E. induction d as [|[k' v'] r IH]; simpl; intros E; [auto|].
      destruct (keq k k') as [->|Hn]; [discriminate|]. simpl. rewrite IH by auto.
      symmetry. apply Permutation_middle.
  Qed.

  Lemma groupby_perm_fold a d :
    Permutation (concat (map snd (fold_left (fun d item => setdefault_append keq (key item) (get item) d) a d)))
      (concat (map snd d) ++ map get a).
  Proof.
    revert d. induction a as [|x a IH]; intros d; simpl; [rewrite app_nil_r; auto|].
    rewrite IH, concat_map_perm. simpl. apply Permutation_middle.
  Qed.

  Lemma groupby_perm a : Permutation (concat (map snd (groupby_unsorted keq key get a))) (map get a).
  Proof. unfold groupby_unsorted. rewrite groupby_perm_fold. reflexivity. Qed.

  (** sorting *)
  Lemma insert_key_perm {V} leb (kv : K * V) d : Permutation (insert_key leb kv d) (kv :: d).
  Proof.
    induction d as [|x d IH]; simpl; [auto|]. destruct (leb (fst kv) (fst x)); [auto|].
    rewrite IH. apply perm_swap.
  Qed.
  Lemma sort_items_perm {V} leb (d : dict K V) : Permutation (sort_items leb d) d.
  Proof. induction d as [|x d IH]; simpl; [auto|]. rewrite insert_key_perm, IH; auto. Qed.

  Lemma insert_key_sorted {V} leb (kv : K * V) d :
    (forall x y, leb x y = true \/ leb y x = true) ->
    StronglySorted (fun p q => leb (fst p) (fst q) = true) d ->
    (forall x y z, leb x y = true -> leb y z = true -> leb x z = true) ->
    StronglySorted (fun p q => leb (fst p) (fst q) = true) (insert_key leb kv d).
  Proof.
    intros Htot Hs Htr. induction Hs as [|x d Hs IH Hx]; simpl.
    - repeat constructor.
    - destruct (leb (fst kv) (fst x)) eqn:E.
      + constructor; [constructor; auto|]. constructor; auto.
        eapply Forall_impl; [|exact Hx]. intros q Hq; eapply Htr; eauto.
      + constructor; auto.
        eapply Permutation_Forall; [apply Permutation_sym, insert_key_perm|].
        constructor; auto. destruct (Htot (fst kv) (fst x)); congruence.
  Qed.
  Lemma sort_items_sorted {V} leb (d : dict K V) :
    (forall x y, leb x y = true \/ leb y x = true) ->
    (forall x y z, leb x y = true -> leb y z = true -> leb x z = true) ->
    StronglySorted (fun p q => leb (fst p) (fst q) = true) (sort_items leb d).
  Proof.
    intros Htot Htr. induction d as [|x d IH]; simpl; [constructor|].
    apply insert_key_sorted; auto.
  Qed.
End GroupByFacts.

(** ** find_missing *)
Open Scope Z_scope.
Lemma fold_max_spec l a : a <= fold_left Z.max l a /\ (forall x, In x l -> x <= fold_left Z.max l a) /\
  (fold_left Z.max l a = a \/ In (fold_left Z.max l a) l).
Proof.
  revert a. induction l as [|x l IH]; intros a; simpl.
  - split; [lia|]. split; [tauto|auto].
  - destruct (IH (Z.max a x)) as (H1 & H2 & H3). split; [lia|]. split.
    + intros y [->|Hy]; [lia|auto].
    + destruct H3 as [H3|H3]; [|auto].
      destruct (Z.max_spec a x) as [[_ E]|[_ E]]; rewrite E in H3 |- *; auto.
Qed.

Lemma max_id_ge lst x : In x lst -> x <= max_id lst.
Proof.
  destruct lst as [|y l]; [intros []|]. simpl. pose proof (fold_max_spec l y) as (H1 & H2 & _).
  intros [->|H]; auto.
Qed.

Lemma max_id_in lst : lst <> [] -> In (max_id lst) lst.
Proof.
  destruct lst as [|y l]; [congruence|]. intros _. simpl.
  pose proof (fold_max_spec l y) as (_ & _ & [->|H]); auto.
Qed.

Lemma in_zrange a b x : In x (zrange a b) <-> a <= x < b.
Proof.
  unfold zrange. rewrite in_map_iff. split.
  - intros (i & <- & H). apply in_seq in H. lia.
  - intros H. exists (Z.to_nat (x - a)). rewrite in_seq. lia.
Qed.

Lemma zrange_sorted a b : StronglySorted Z.lt (zrange a b).
Proof.
  unfold zrange. generalize (Z.to_nat (b - a)) as n. intros n. generalize 0%nat as s.
  induction n as [|n IH]; intros s; simpl; constructor; auto.
  apply Forall_forall. intros y Hy. apply in_map_iff in Hy as (i & <- & Hi). apply in_seq in Hi. lia.
Qed.

Lemma filter_sorted {A} (lt : A -> A -> Prop) f l : StronglySorted lt l -> StronglySorted lt (filter f l).
Proof.
  induction 1 as [|x l Hs IH Hx]; simpl; [constructor|].
  destruct (f x); auto. constructor; auto.
  apply Forall_forall. intros y Hy. apply filter_In in Hy as [Hy _].
  rewrite Forall_forall in Hx; auto.
Qed.

Lemma in_missing_ids lst x : In x (missing_ids lst) <-> 0 <= x < max_id lst /\ ~ In x lst.
Proof.
  destruct lst as [|y l].
  - simpl. split; [tauto|lia].
  - unfold missing_ids. rewrite filter_In, in_zrange, negb_true_iff, inb_false. tauto.
Qed.

Lemma missing_sorted lst : StronglySorted Z.lt (missing_ids lst).
Proof. destruct lst; [constructor|]. apply filter_sorted, zrange_sorted. Qed.

Lemma sorted_nth_lt l i j : StronglySorted Z.lt l -> (i < j)%nat -> (j < length l)%nat -> nth i l 0 < nth j l 0.
Proof.
  intros Hs. revert i j. induction Hs as [|x l Hs IH Hx]; intros i j Hij Hj; simpl in Hj; [lia|].
  destruct i as [|i], j as [|j]; simpl; try lia.
  - rewrite Forall_forall in Hx. apply Hx, nth_In. lia.
  - apply IH; lia.
Qed.

Lemma find_missing_increasing lst i j : (i < j)%nat -> find_missing lst i < find_missing lst j.
Proof.
  intros Hij. unfold find_missing.
  destruct (Nat.ltb_spec i (length (missing_ids lst))) as [Hi|Hi],
           (Nat.ltb_spec j (length (missing_ids lst))) as [Hj|Hj]; try lia.
  - apply sorted_nth_lt; auto using missing_sorted.
  - assert (In (nth i (missing_ids lst) 0) (missing_ids lst)) as H by (apply nth_In; auto).
    apply in_missing_ids in H. lia.
Qed.

Lemma find_missing_fresh lst i : ~ In (find_missing lst i) lst.
Proof.
  unfold find_missing. destruct (Nat.ltb_spec i (length (missing_ids lst))) as [Hi|Hi].
  - assert (In (nth i (missing_ids lst) 0) (missing_ids lst)) as H by (apply nth_In; auto).
    apply in_missing_ids in H. tauto.
  - intros H. apply max_id_ge in H. lia.
Qed.

Lemma find_missing_complete lst x : (forall y, In y lst -> 0 <= y) -> lst <> [] -> 0 <= x -> ~ In x lst ->
  exists i, find_missing lst i = x.
Proof.
  intros Hpos Hne Hx Hn. destruct (Z_lt_le_dec x (max_id lst)) as [H|H].
  - assert (In x (missing_ids lst)) as Hin by (apply in_missing_ids; auto).
    apply In_nth with (d := 0) in Hin as (i & Hi & E). exists i.
    unfold find_missing. apply Nat.ltb_lt in Hi. rewrite Hi. exact E.
  - assert (x <> max_id lst) by (intros ->; apply Hn, max_id_in; auto).
    exists (length (missing_ids lst) + Z.to_nat (x - max_id lst - 1))%nat.
    unfold find_missing. destruct (Nat.ltb_spec (length (missing_ids lst) + Z.to_nat (x - max_id lst - 1)) (length (missing_ids lst))); lia.
Qed.

Lemma find_missing_nonneg lst i : (forall y, In y lst -> 0 <= y) -> 0 <= find_missing lst i.
Proof.
  intros Hpos. unfold find_missing. destruct (Nat.ltb_spec i (length (missing_ids lst))) as [Hi|Hi].
  - assert (In (nth i (missing_ids lst) 0) (missing_ids lst)) as H by (apply nth_In; auto).
    apply in_missing_ids in H. lia.
  - destruct lst as [|y l]; [cbn [max_id missing_ids length]; lia|].
    pose proof (Hpos _ (max_id_in (y :: l) ltac:(congruence))). lia.
Qed.

(** ** chunkit *)
Lemma zslice_concat {A} (arr : list A) (c : Z) (k : nat) : 0 < c ->
  concat (map (fun i => zslice (i * c) ((i + 1) * c) arr) (zrange 0 (Z.of_nat k))) =
  firstn (Z.to_nat (Z.of_nat k * c)) arr.
Proof.
  intros Hc. unfold zrange. rewrite Z.sub_0_r, Nat2Z.id.
  induction k as [|k IH]; [reflexivity|].
  rewrite seq_S, !map_app, concat_app, IH. simpl map. simpl concat. rewrite app_nil_r.
  unfold zslice. rewrite <- (firstn_skipn (Z.to_nat (Z.of_nat k * c)) (firstn (Z.to_nat (Z.of_nat (S k) * c)) arr)).
  rewrite firstn_firstn, Nat.min_l by nia. f_equal. f_equal; f_equal; lia.
Qed.

Lemma nth_zrange0 k i : (i < k)%nat -> nth i (zrange 0 (Z.of_nat k)) 0 = Z.of_nat i.
Proof.
  intros H. unfold zrange. rewrite Z.sub_0_r, Nat2Z.id.
  transitivity ((fun i => 0 + Z.of_nat i) (nth i (seq 0 k) 0%nat)).
  - rewrite <- (map_nth (fun i => 0 + Z.of_nat i)). apply nth_indep. rewrite map_length, seq_length; auto.
  - rewrite seq_nth by auto. lia.
Qed.

Definition ceil_div (n c : Z) : Z := (n + c - 1) / c.

Lemma num_chunks_ceil n c : 0 < c -> 0 <= n ->
  (if negb (Z.eqb (n mod c) 0) then n / c + 1 else n / c) = ceil_div n c.
Proof.
  intros Hc Hn. unfold ceil_div. pose proof (Z.div_mod n c ltac:(lia)) as E.
  pose proof (Z.mod_pos_bound n c Hc) as Hm.
  destruct (Z.eqb_spec (n mod c) 0) as [E0|E0]; simpl.
  - apply Z.div_unique with (r := c - 1); nia.
  - apply Z.div_unique with (r := n mod c - 1); nia.
Qed.

Lemma ceil_div_bounds n c : 0 < c -> 0 <= n -> (ceil_div n c - 1) * c < n \/ n = 0 /\ ceil_div n c = 0.
Proof.
  intros Hc Hn. unfold ceil_div. pose proof (Z.div_mod (n + c - 1) c ltac:(lia)) as E.
  pose proof (Z.mod_pos_bound (n + c - 1) c Hc) as Hm.
  destruct (Z.eq_dec n 0) as [->|]; [right|left; nia].
  split; [reflexivity|]. apply Z.div_small. lia.
Qed.

Lemma ceil_div_cover n c : 0 < c -> 0 <= n -> n <= ceil_div n c * c /\ 0 <= ceil_div n c.
Proof.
  intros Hc Hn. unfold ceil_div. pose proof (Z.div_mod (n + c - 1) c ltac:(lia)) as E.
  pose proof (Z.mod_pos_bound (n + c - 1) c Hc) as Hm. split; [nia|]. apply Z.div_pos; lia.
Qed.

Lemma chunkit_shape {A} (arr : list A) c : 0 < c ->
  chunkit arr c = Ok (map (fun i => zslice (i * c) ((i + 1) * c) arr)
                          (zrange 0 (ceil_div (Z.of_nat (length arr)) c))).
Proof.
  intros Hc. unfold chunkit. destruct (Z.eqb_spec c 0); [lia|].
  rewrite num_chunks_ceil by lia. reflexivity.
Qed.

Lemma zslice_length {A} (arr : list A) i c : 0 < c -> 0 <= i ->
  Z.of_nat (length (zslice (i * c) ((i + 1) * c) arr)) =
  Z.max 0 (Z.min c (Z.of_nat (length arr) - i * c)).
Proof. intros Hc Hi. unfold zslice. rewrite skipn_length, firstn_length. nia. Qed.

Lemma chunkit_spec {A} (arr : list A) c : 0 < c ->
  exists out, chunkit arr c = Ok out /\
    concat out = arr /\
    Z.of_nat (length out) = ceil_div (Z.of_nat (length arr)) c /\
    (forall i ch, nth_error out i = Some ch ->
        ch <> [] /\ Z.of_nat (length ch) <= c /\ (S i < length out -> Z.of_nat (length ch) = c)%nat).
Proof.
  intros Hc. rewrite chunkit_shape by auto. eexists. split; [reflexivity|].
  set (n := Z.of_nat (length arr)).
  pose proof (ceil_div_cover n c Hc ltac:(lia)) as [Hcov Hpos].
  assert (E : ceil_div n c = Z.of_nat (Z.to_nat (ceil_div n c))) by lia.
  set (k := Z.to_nat (ceil_div n c)) in *. rewrite E.
  assert (Hlen : length (zrange 0 (Z.of_nat k)) = k).
  { unfold zrange. rewrite map_length, seq_length. lia. }
  repeat split.
  - rewrite zslice_concat by auto. apply firstn_all2. lia.
  - rewrite map_length, Hlen. lia.
  - intros ->. rewrite nth_error_map in H. destruct (nth_error (zrange 0 (Z.of_nat k)) i) eqn:En; [|discriminate].
    simpl in H. injection H as H.
    assert (Hi : (i < k)%nat) by (rewrite <- Hlen; apply nth_error_Some; congruence).
    apply nth_error_nth with (d := 0) in En. rewrite nth_zrange0 in En by auto. subst z.
    pose proof (zslice_length arr (Z.of_nat i) c Hc ltac:(lia)) as HL. rewrite H in HL. simpl length in HL.
    destruct (ceil_div_bounds n c Hc ltac:(lia)) as [Hb|[Hb1 Hb2]]; nia.
  - rewrite nth_error_map in H. destruct (nth_error (zrange 0 (Z.of_nat k)) i) eqn:En; [|discriminate].
    simpl in H. injection H as <-.
    assert (Hi : (i < k)%nat) by (rewrite <- Hlen; apply nth_error_Some; congruence).
    apply nth_error_nth with (d := 0) in En. rewrite nth_zrange0 in En by auto. subst z.
    rewrite zslice_length; lia.
  - rewrite map_length, Hlen. intros Hlt.
    rewrite nth_error_map in H. destruct (nth_error (zrange 0 (Z.of_nat k)) i) eqn:En; [|discriminate].
    simpl in H. injection H as <-.
    assert (Hi : (i < k)%nat) by lia.
    apply nth_error_nth with (d := 0) in En. rewrite nth_zrange0 in En by auto. subst z.
    rewrite zslice_length by lia.
    destruct (ceil_div_bounds n c Hc ltac:(lia)) as [Hb|[Hb1 Hb2]]; [|lia].
    fold n. nia.
Qed.
Close Scope Z_scope.
