(** Proofs about the time-series plot. *)
From Coq Require Import ZArith Arith Bool String List Permutation Sorted Lia.
From Verif Require Import Base Base_Proofs GF_Model GF_Proofs Fit_Spec Fit_Proofs Fit2_Proofs Aln_Model Aln_Spec Aln_Proofs Fts_Model Fts_Spec.
Import ListNotations.
Local Open Scope nat_scope.
Local Open Scope string_scope.
Local Open Scope list_scope.

Lemma columns_wanted inter f : exists cols, columns inter f = Ok cols /\ filter (fun l => negb (String.eqb l "inc")) cols = map fst (wanted inter f).
Proof. destruct f as [[|] [|] [|] [|] [|] [|]], inter; eexists; split; reflexivity. Qed.
Lemma color_wanted inter f : forallb (fun w => match color true (fst w), color (printorig f) (fst w) with
    Ok a, Ok b => String.eqb a (snd w) && String.eqb b (snd w) | _, _ => false end) (wanted inter f) = true.
Proof. destruct f as [[|] [|] [|] [|] [|] [|]], inter; reflexivity. Qed.
Lemma color_of inter f w : In w (wanted inter f) -> color true (fst w) = Ok (snd w) /\ color (printorig f) (fst w) = Ok (snd w).
Proof.
  intros I. pose proof (color_wanted inter f) as X. rewrite forallb_forall in X. apply X in I.
  destruct (color true (fst w)), (color (printorig f) (fst w)); try discriminate.
  apply andb_true_iff in I as [A B]. apply String.eqb_eq in A, B. now subst.
Qed.

Section P.
Context {V : Type}.
Variable deg : V -> V.
Notation row := (row V).

Lemma isin_iff l x : isin l x = true <-> In x l.
Proof. unfold isin. rewrite existsb_exists. split; [intros (y & I & E); apply Z.eqb_eq in E; now subst|intros I; exists x; split; [exact I|apply Z.eqb_refl]]. Qed.
Lemma picks_filter (P : row -> Prop) (b : row -> bool) l : (forall r, b r = true <-> P r) -> picks P l (filter b l).
Proof.
  intros H. induction l as [|r l IH]; cbn; [constructor|]. destruct (b r) eqn:E.
  - constructor; [now apply H|exact IH].
  - constructor; [|exact IH]. rewrite <- H. congruence.
Qed.
Lemma filter_filter {A} (p q : A -> bool) l : filter p (filter q l) = filter (fun x => q x && p x) l.
Proof. induction l as [|x l IH]; cbn; [reflexivity|]. destruct (q x); cbn; [|exact IH]. destruct (p x); now rewrite IH. Qed.
Lemma select_picks years months (rows : list row) : picks (shown years months) rows (select years months rows).
Proof.
  set (b := fun r : row => (match years with Some l => isin l (year r) | None => true end) && (match months with Some l => isin l (month r) | None => true end)).
  assert (T : forall l : list row, filter (fun _ => true) l = l) by (induction l; cbn; congruence).
  assert (E : select years months rows = filter b rows).
  { unfold select, b. destruct years as [ys|], months as [ms|]; rewrite ?filter_filter; try reflexivity.
    - apply filter_ext. intros r. now rewrite andb_true_r.
    - cbn. now rewrite T. }
  rewrite E. apply picks_filter. intros r. unfold b, shown. rewrite andb_true_iff.
  split.
  - intros [A B]. split; intros l ->; now apply isin_iff.
  - intros [A B]. split; [destruct years as [l|]|destruct months as [l|]]; try reflexivity; apply isin_iff; auto.
Qed.

(** sorting *)
Lemma insert_row_perm (r : row) l : Permutation (insert_row r l) (r :: l).
Proof. induction l as [|q l IH]; cbn; [auto|]. destruct (Z.leb _ _); auto. rewrite IH. apply perm_swap. Qed.
Lemma sort_rows_perm (l : list row) : Permutation (sort_rows l) l.
Proof. induction l as [|x l IH]; cbn; [auto|]. rewrite insert_row_perm. now constructor. Qed.
Lemma insert_row_sorted (r : row) l : StronglySorted Z.le (map time l) -> StronglySorted Z.le (map time (insert_row r l)).
Proof.
  induction l as [|q l IH]; cbn; intros H; [repeat constructor|]. inversion H as [|? ? Hs Hf]; subst.
  destruct (Z.leb_spec (time r) (time q)); cbn.
  - constructor; auto. constructor; auto. eapply Forall_impl; [|exact Hf]. cbn. intros; lia.
  - constructor; auto. rewrite Forall_forall in *. intros z Hz. apply in_map_iff in Hz as (x & <- & Hx).
    apply (Permutation_in _ (insert_row_perm r l)) in Hx. destruct Hx as [->|Hx]; [lia|]. apply Hf. now apply in_map.
Qed.
Lemma sort_rows_sorted (l : list row) : StronglySorted Z.le (map time (sort_rows l)).
Proof. induction l as [|x l IH]; cbn; [constructor|]. now apply insert_row_sorted. Qed.

(** groups *)
Definition at_date (t : Z) (rows : list row) : list row := filter (fun r => Z.eqb (time r) t) rows.
Lemma by_date_eq (rows : list row) : by_date rows = map (fun t => at_date t rows) (sort_z (uniq (map time rows))).
Proof.
  unfold by_date, groups_of. rewrite fromkeys_uniq. apply map_ext. intros t. unfold at_date.
  clear. induction rows as [|r l IH]; cbn; [reflexivity|]. destruct (Z.eqb (time r) t); cbn; now rewrite IH.
Qed.
Lemma split_filter {A} (p : A -> bool) l : Permutation l (filter p l ++ filter (fun x => negb (p x)) l).
Proof.
  induction l as [|x l IH]; cbn; [auto|]. destruct (p x); cbn.
  - now constructor.
  - rewrite <- Permutation_middle. now constructor.
Qed.
Lemma groups_perm ks : NoDup ks -> forall rows : list row, (forall r, In r rows -> In (time r) ks) ->
  Permutation (List.concat (map (fun t => at_date t rows) ks)) rows.
Proof.
  induction 1 as [|k ks N _ IH]; intros rows H.
  - destruct rows as [|r l]; [constructor|]. destruct (H r). now left.
  - cbn. etransitivity; [|symmetry; apply (split_filter (fun r => Z.eqb (time r) k) rows)].
    apply Permutation_app_head.
    rewrite <- (IH (filter (fun r => negb (Z.eqb (time r) k)) rows)).
    + match goal with |- Permutation ?a ?b => assert (E : a = b); [|now rewrite E] end.
      f_equal. apply map_ext_in. intros t I. unfold at_date. rewrite filter_filter. apply filter_ext.
      intros r. destruct (Z.eqb_spec (time r) t) as [->|]; [|now rewrite andb_false_r].
      destruct (Z.eqb_spec t k) as [->|]; [contradiction|reflexivity].
    + intros r I. apply filter_In in I as [I E]. cbn beta in E. destruct (H r I) as [J|J]; [|exact J].
      destruct (Z.eqb_spec (time r) k); [discriminate|congruence].
Qed.
Lemma lt_sorted l : NoDup l -> StronglySorted Z.le l -> StronglySorted Z.lt l.
Proof.
  induction l as [|x l IH]; intros N S; [constructor|]. inversion N; subst. inversion S as [|? ? Hs Hf]; subst.
  constructor; [now apply IH|]. rewrite Forall_forall in *. intros y I. specialize (Hf y I).
  assert (x <> y) by congruence. lia.
Qed.

Lemma concat_combine {A B C} (f : A -> list B) (g : A -> list C) l : (forall x, In x l -> length (f x) = length (g x)) ->
  combine (List.concat (map f l)) (List.concat (map g l)) = List.concat (map (fun x => combine (f x) (g x)) l).
Proof.
  induction l as [|x l IH]; intros H; cbn; [reflexivity|].
  rewrite combine_app_eq by (apply H; now left). now rewrite IH by (intros; apply H; now right).
Qed.
Lemma filter_concat {A} (p : A -> bool) l : filter p (List.concat l) = List.concat (map (filter p) l).
Proof. induction l as [|x l IH]; cbn; [reflexivity|]. now rewrite filter_app, IH. Qed.
Lemma last_map {A B} (f : A -> B) l d : last (map f l) (f d) = f (last l d).
Proof. induction l as [|x l IH]; [reflexivity|]. cbn [map]. destruct l; [reflexivity|]. cbn [map] in *. exact IH. Qed.
Lemma combine_repeat {A B} (a : A) (b : B) k : combine (repeat a k) (repeat b k) = repeat (a, b) k.
Proof. induction k; cbn; congruence. Qed.
Lemma map_repeat_eq {A B} (f : A -> B) a k : map f (repeat a k) = repeat (f a) k.
Proof. induction k; cbn; congruence. Qed.
Lemma combine_map2 {A B C} (f : A -> B) (g : A -> C) l : combine (map f l) (map g l) = map (fun x => (f x, g x)) l.
Proof. induction l; cbn; congruence. Qed.
Lemma maxlen_map {A B} (f : A -> B) l : maxlen (map (map f) l) = maxlen l.
Proof. unfold maxlen. induction l as [|x l IH]; cbn; [reflexivity|]. now rewrite IH, map_length. Qed.

Definition pt (label : string) (r : row) : V * V := (deg (val r "inc"), val r label).

Lemma inc_panel_ok (rows : list row) label c : rows <> [] -> color true label = Ok c ->
  exists p, inc_panel deg rows label = Ok p /\ p_label p = label /\ p_color p = c /\
    Permutation (p_points p) (map (pt label) rows) /\
    exists dates, StronglySorted Z.lt dates /\ (forall t, In t dates <-> In t (map time rows)) /\
      Forall2 (fun t ln => at_date t rows <> [] /\ exists k d, ln = map (pt label) (at_date t rows) ++ repeat (last (map (pt label) (at_date t rows)) d) k) dates (p_lines p).
Proof.
  intros Hne Hc. destruct rows as [|r0 rest]; [contradiction|]. set (rows := r0 :: rest) in *.
  set (dates := sort_z (uniq (map time rows))).
  assert (Hd : forall t, In t dates <-> In t (map time rows)).
  { intros t. unfold dates. rewrite <- (in_uniq (map time rows)). split; apply Permutation_in; [|symmetry]; apply sort_perm. }
  assert (Nd : NoDup dates).
  { unfold dates. eapply Permutation_NoDup; [symmetry; apply sort_perm|]. apply NoDup_uniq. }
  assert (Hg : forall t, In t dates -> at_date t rows <> []).
  { intros t I. apply Hd, in_map_iff in I as (r & E & I). intros X.
    assert (J : In r (at_date t rows)) by (apply filter_In; split; [exact I|now apply Z.eqb_eq]). rewrite X in J. contradiction. }
  assert (Hgs : forall s, In s (by_date rows) -> s <> []).
  { intros s I. rewrite by_date_eq in I. apply in_map_iff in I as (t & <- & I). now apply Hg. }
  assert (Hb : by_date rows <> []).
  { rewrite by_date_eq. fold dates. intros X. apply map_eq_nil in X.
    assert (In (time r0) dates) by (apply Hd; now left). rewrite X in H. contradiction. }
  set (gs := by_date rows) in *. set (m := maxlen gs).
  assert (Ra : forall (f : row -> V), rectangularize_mask (map (map f) gs) None =
     Ok (map (fun g => map f g ++ repeat (f (last g r0)) (m - length g)) gs, map (mask_row m) gs)).
  { intros f. rewrite (rectangularize_ok (map (map f) gs)) with (d := f r0).
    - rewrite maxlen_map. fold m. rewrite !map_map. do 2 f_equal.
      + apply map_ext. intros g. now rewrite last_map, map_length.
      + apply map_ext. intros g. unfold mask_row. now rewrite map_length.
    - intros X. now apply map_eq_nil in X.
    - intros s I. apply in_map_iff in I as (g & <- & I). intros X. apply map_eq_nil in X. now apply (Hgs g). }
  unfold inc_panel. fold gs. rewrite !Ra. cbn [bind fst snd]. rewrite Hc. cbn [bind].
  eexists. split; [reflexivity|]. cbn [p_label p_color p_lines p_points]. split; [reflexivity|]. split; [reflexivity|].
  rewrite combine_map2, map_map.
  assert (Rx : map (fun g => combine (map deg (map (fun r => val r "inc") g ++ repeat (val (last g r0) "inc") (m - length g)))
        (map (fun r => val r label) g ++ repeat (val (last g r0) label) (m - length g))) gs =
      map (fun g => map (pt label) g ++ repeat (pt label (last g r0)) (m - length g)) gs).
  { apply map_ext. intros g. rewrite map_app, map_repeat_eq, map_map.
    rewrite combine_app_eq by (now rewrite !map_length). now rewrite combine_repeat, combine_map2. }
  cbn [fst snd]. rewrite Rx. split.
  - rewrite concat_combine, filter_concat, concat_map, !map_map.
    + match goal with |- Permutation ?a _ => assert (E : a = map (pt label) (List.concat gs)) end.
      { rewrite concat_map. f_equal. apply map_ext_in. intros g I.
        replace (mask_row m g) with (mask_row m (map (pt label) g)) by (unfold mask_row; now rewrite map_length).
        replace (m - length g) with (m - length (map (pt label) g)) by (now rewrite map_length).
        apply unmask_row. rewrite map_length. now apply maxlen_ge. }
      rewrite E. apply Permutation_map. unfold gs. rewrite by_date_eq. apply groups_perm; [exact Nd|].
      intros r I. apply Hd. now apply in_map.
    + intros g I. unfold mask_row. rewrite !app_length, map_length, !repeat_length. reflexivity.
  - exists dates. split; [apply lt_sorted; [exact Nd|apply sort_sorted]|]. split; [exact Hd|].
    unfold gs. rewrite by_date_eq. fold dates. rewrite map_map.
    assert (Hall : forall t, In t dates -> at_date t rows <> []) by exact Hg.
    clear -Hall. induction dates as [|t dates IH]; cbn; [constructor|]. constructor.
    + split; [apply Hall; now left|]. exists (m - length (at_date t rows)), (pt label r0). now rewrite last_map.
    + apply IH. intros; apply Hall; now right.
Qed.
Lemma inc_panel_none label : inc_panel deg [] label = Err StopIteration.
Proof. reflexivity. Qed.

(** the legend *)
Lemma insert_s_in x y l : In y (insert_s x l) <-> y = x \/ In y l.
Proof.
  induction l as [|z l IH]; cbn; [intuition congruence|]. destruct (String.eqb_spec x z) as [->|].
  - cbn. intuition congruence.
  - destruct (String.leb x z); cbn; [intuition congruence|]. rewrite IH. intuition congruence.
Qed.
Lemma spos_nth {B} (g : B -> string) x l : In x (map g l) -> exists b, nth_error l (spos x (map g l)) = Some b /\ g b = x.
Proof.
  induction l as [|a l IH]; cbn; [tauto|]. intros I. destruct (String.eqb_spec x (g a)) as [->|]; [now exists a|].
  cbn. apply IH. destruct I; [congruence|assumption].
Qed.
Lemma wanted_NoDup inter f : NoDup (map fst (wanted inter f)).
Proof. destruct f as [[|] [|] [|] [|] [|] [|]], inter; vm_compute; repeat constructor; cbn; intuition discriminate. Qed.
Lemma unique_wanted inter f : Permutation (fold_right insert_s [] (map fst (wanted inter f))) (map fst (wanted inter f)).
Proof.
  apply NoDup_Permutation.
  - destruct f as [[|] [|] [|] [|] [|] [|]], inter; vm_compute; repeat constructor; cbn; intuition discriminate.
  - apply wanted_NoDup.
  - intros x. generalize (map fst (wanted inter f)). induction l as [|a l IH]; cbn; [tauto|]. rewrite insert_s_in, IH. intuition congruence.
Qed.
End P.
