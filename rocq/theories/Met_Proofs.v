(** Lemmas for the metrics. *)
From Coq Require Import Reals List ZArith Bool String Lra Lia Permutation.
From Verif Require Import Base Base_Proofs GF_Model Met_Model Met_Spec.
Import ListNotations.
Open Scope R_scope.

(** ** sums *)
Lemma Rsum_app l m : Rsum (l ++ m) = Rsum l + Rsum m.
Proof. induction l as [|x l IH]; simpl; [lra|]. rewrite IH. lra. Qed.
Lemma Rsum_perm l m : Permutation l m -> Rsum l = Rsum m.
Proof. induction 1; simpl; lra. Qed.
Lemma avg_perm l m : Permutation l m -> avg l = avg m.
Proof. intros H. unfold avg. rewrite (Rsum_perm _ _ H), (Permutation_length H). reflexivity. Qed.
Lemma Rsum_map_add {A} (f g : A -> R) l : Rsum (map (fun x => f x + g x) l) = Rsum (map f l) + Rsum (map g l).
Proof. induction l as [|x l IH]; simpl; [lra|]. rewrite IH. lra. Qed.
Lemma Rsum_map_mul {A} (f : A -> R) c l : Rsum (map (fun x => c * f x) l) = c * Rsum (map f l).
Proof. induction l as [|x l IH]; simpl; [lra|]. rewrite IH. lra. Qed.
Lemma Rsum_map_const {A} c (l : list A) : Rsum (map (fun _ => c) l) = INR (List.length l) * c.
Proof. induction l as [|x l IH]; [simpl; lra|]. cbn [map List.length]. rewrite S_INR. simpl. rewrite IH. lra. Qed.
Lemma Rsum_nonneg l : Forall (fun x => 0 <= x) l -> 0 <= Rsum l.
Proof. induction 1; simpl; lra. Qed.
Lemma Rsum_le {A} (f g : A -> R) l : (forall x, In x l -> f x <= g x) -> Rsum (map f l) <= Rsum (map g l).
Proof.
  induction l as [|x l IH]; simpl; intros H; [lra|]. assert (f x <= g x) by auto.
  assert (Rsum (map f l) <= Rsum (map g l)) by auto. lra.
Qed.
Lemma len_pos {A} (l : list A) : l <> [] -> 0 < INR (List.length l).
Proof. intros H. apply lt_0_INR. destruct l; [congruence|simpl; lia]. Qed.

Lemma avg_map_add {A} (f g : A -> R) l : avg (map (fun x => f x + g x) l) = avg (map f l) + avg (map g l).
Proof. unfold avg. rewrite Rsum_map_add, !map_length. unfold Rdiv. ring. Qed.
Lemma avg_map_mul {A} (f : A -> R) c l : avg (map (fun x => c * f x) l) = c * avg (map f l).
Proof. unfold avg. rewrite Rsum_map_mul, !map_length. unfold Rdiv. ring. Qed.
Lemma avg_map_const {A} c (l : list A) : l <> [] -> avg (map (fun _ => c) l) = c.
Proof. intros H. assert (L := len_pos l H). unfold avg. rewrite Rsum_map_const, map_length. field. lra. Qed.
Lemma avg_map_ext {A} (f g : A -> R) l : (forall x, In x l -> f x = g x) -> avg (map f l) = avg (map g l).
Proof. intros H. rewrite (map_ext_in _ _ _ H). reflexivity. Qed.
Lemma avg_le {A} (f g : A -> R) l : (forall x, In x l -> f x <= g x) -> avg (map f l) <= avg (map g l).
Proof.
  intros H. destruct l as [|a l]; [unfold avg; simpl; lra|].
  assert (L := len_pos (a :: l) ltac:(discriminate)). unfold avg. rewrite !map_length.
  apply Rmult_le_compat_r; [apply Rlt_le, Rinv_0_lt_compat, L|]. apply Rsum_le. exact H.
Qed.
Lemma avg_nonneg {A} (f : A -> R) l : (forall x, 0 <= f x) -> 0 <= avg (map f l).
Proof.
  intros H. destruct l as [|a l]; [unfold avg; simpl; lra|].
  rewrite <- (avg_map_const 0 (a :: l)) by discriminate. apply avg_le. auto.
Qed.

(** ** mean of squares around a value *)
Lemma avg_sq_shift {A} (f : A -> R) c l : l <> [] ->
  avg (map (fun x => (f x - c) ^ 2) l) = avg (map (fun x => f x ^ 2) l) - 2 * c * avg (map f l) + c ^ 2.
Proof.
  intros H. rewrite (avg_map_ext _ (fun x => f x ^ 2 + ((-2 * c) * f x + c ^ 2)) l) by (intros; ring).
  rewrite avg_map_add, avg_map_add, avg_map_mul, avg_map_const by exact H. ring.
Qed.

(** ** present rows *)
Lemma somes_map_Some {A} (l : list A) : somes (map Some l) = l.
Proof. induction l; simpl; congruence. Qed.
Lemma somes_app {A} (l m : list (option A)) : somes (l ++ m) = (somes l ++ somes m)%list.
Proof. induction l as [|[x|] l IH]; simpl; congruence. Qed.
Lemma somes_map {A B} (f : A -> B) l : somes (map (option_map f) l) = map f (somes l).
Proof. induction l as [|[x|] l IH]; simpl; congruence. Qed.
Lemma both_app l m : both (l ++ m) = (both l ++ both m)%list.
Proof. induction l as [|[[x|] [y|]] l IH]; simpl; congruence. Qed.

(** the pairs of values both series have *)
Definition pairs (a b : series) : list (R * R) := both (map snd (align_outer a b)).

Lemma diff_pairs f a b : somes (map snd (smap f (subtract a b))) = map (fun p => f (fst p - snd p)) (pairs a b).
Proof.
  unfold subtract, smap, pairs. rewrite !map_map. cbn [fst snd].
  induction (align_outer a b) as [|[l [[x|] [y|]]] r IH]; simpl; congruence.
Qed.

Lemma mean_diff f a b : mean (smap f (subtract a b)) =
  match pairs a b with [] => None | p => Some (avg (map (fun p => f (fst p - snd p)) p)) end.
Proof. unfold mean. rewrite diff_pairs. destruct (pairs a b); reflexivity. Qed.

(** alignment only looks at the labels *)
Definition relabel (f : option R -> option R) (s : series) : series := map (fun r => (fst r, f (snd r))) s.
Lemma index_relabel f s : index (relabel f s) = index s.
Proof. unfold index, relabel. rewrite map_map. reflexivity. Qed.
Lemma matching_relabel f l b : matching l (relabel f b) = relabel f (matching l b).
Proof. induction b as [|[k v] b IH]; simpl; [reflexivity|]. destruct (Z.eqb k l); simpl; congruence. Qed.
Lemma align_relabel f g a b : f None = None -> g None = None ->
  align_outer (relabel f a) (relabel g b) =
  map (fun r => (fst r, (f (fst (snd r)), g (snd (snd r))))) (align_outer a b).
Proof.
  intros Hf Hg. unfold align_outer, same_index. rewrite !index_relabel.
  destruct (list_eq_dec Z.eq_dec (index a) (index b)) as [E|_].
  - clear - E. revert b E. induction a as [|[k v] a IH]; intros [|[k' v'] b] E; simpl in *; try discriminate; [reflexivity|].
    f_equal. apply IH. congruence.
  - rewrite map_app. f_equal.
    + induction a as [|[k v] a IH]; [reflexivity|]. cbn [relabel map flat_map fst snd] in *. rewrite map_app, <- IH. f_equal.
      rewrite matching_relabel. destruct (matching k b) as [|q m]; [simpl; rewrite Hg; reflexivity|].
      cbn [relabel map]. f_equal. rewrite !map_map. reflexivity.
    + rewrite map_map. cbn [fst snd]. rewrite Hf. induction b as [|[k v] b IH]; [reflexivity|].
      cbn [relabel map filter fst snd]. rewrite matching_relabel.
      destruct (matching k a) as [|q m]; cbn [relabel map]; [|exact IH].
      cbn [fst snd]. f_equal. exact IH.
Qed.

Lemma pairs_relabel (f g : R -> R) a b :
  pairs (relabel (option_map f) a) (relabel (option_map g) b) = map (fun p => (f (fst p), g (snd p))) (pairs a b).
Proof.
  unfold pairs. rewrite align_relabel by reflexivity. rewrite map_map. cbn [snd].
  induction (align_outer a b) as [|[l [[x|] [y|]]] r IH]; simpl; congruence.
Qed.

Lemma sub_scalar_relabel a m : sub_scalar a (Some m) = relabel (option_map (fun x => x - m)) a.
Proof. unfold sub_scalar, relabel. apply map_ext. intros [k [v|]]; reflexivity. Qed.

(** pairs come from rows of both series *)
Lemma both_in l x y : In (x, y) (both l) <-> In (Some x, Some y) l.
Proof.
  induction l as [|[[u|] [v|]] l IH]; simpl; try tauto.
  - split; intros [H|H]; [left; congruence|tauto|left; inversion H; reflexivity|tauto].
  - rewrite IH. split; [tauto|]. intros [H|H]; [discriminate|exact H].
  - rewrite IH. split; [tauto|]. intros [H|H]; [discriminate|exact H].
  - rewrite IH. split; [tauto|]. intros [H|H]; [discriminate|exact H].
Qed.
Lemma pairs_in a b x y : In (x, y) (pairs a b) -> (exists l, In (l, Some x) a) /\ (exists l, In (l, Some y) b).
Proof.
  unfold pairs. rewrite both_in, in_map_iff. intros ([l [u v]] & E & H). simpl in E. inversion E; subst. clear E.
  unfold align_outer, same_index in H. destruct (list_eq_dec Z.eq_dec (index a) (index b)) as [E|_].
  - revert b E H. induction a as [|[k s] a IH]; intros [|[k' s'] b] E H; simpl in *; try discriminate; try tauto.
    destruct H as [H|H]; [inversion H; subst; split; eexists; left; reflexivity|].
    destruct (IH b ltac:(congruence) H) as [[l1 H1] [l2 H2]]. split; eexists; right; eassumption.
  - apply in_app_or in H. destruct H as [H|H].
    + apply in_flat_map in H. destruct H as ([k s] & Ha & H). cbn [fst snd] in H.
      destruct (matching k b) as [|q m] eqn:Em; [destruct H as [H|[]]; discriminate|].
      rewrite <- Em in H. clear Em. apply in_map_iff in H. destruct H as ([k' s'] & E & H). inversion E; subst.
      unfold matching in H. apply filter_In in H. split; [eauto|]. exists k'. tauto.
    + apply in_map_iff in H. destruct H as ([k' s'] & E & H). discriminate.
Qed.
Lemma mean_some s l x : In (l, Some x) s -> exists m, mean s = Some m.
Proof.
  intros H. unfold mean. assert (K : In x (somes (map snd s))).
  { induction s as [|[k [v|]] s IH]; simpl in *; [tauto| |].
    - destruct H as [H|H]; [left; congruence|right; auto].
    - destruct H as [H|H]; [discriminate|auto]. }
  destruct (somes (map snd s)); [destruct K|eauto].
Qed.
Lemma pairs_means a b : pairs a b <> [] -> exists m1 m2, mean a = Some m1 /\ mean b = Some m2.
Proof.
  intros H. destruct (pairs a b) as [|[x y] r] eqn:E; [congruence|].
  assert (I : In (x, y) (pairs a b)) by (rewrite E; left; reflexivity).
  apply pairs_in in I. destruct I as [[l1 H1] [l2 H2]]. destruct (mean_some _ _ _ H1) as [m1 E1].
  destruct (mean_some _ _ _ H2) as [m2 E2]. eauto.
Qed.

(** ** the metrics on the pairs *)
Definition D (p : list (R * R)) : list R := map (fun q => fst q - snd q) p.

Lemma rmsd_pairs a b : pairs a b <> [] ->
  rmsd a b = Some (sqrt (avg (map (fun q => (fst q - snd q) ^ 2) (pairs a b)))).
Proof. intros H. unfold rmsd. cbv zeta. rewrite mean_diff. destruct (pairs a b); [congruence|reflexivity]. Qed.
Lemma mae_pairs a b : pairs a b <> [] ->
  mae a b = Some (avg (map (fun q => Rabs (fst q - snd q)) (pairs a b))).
Proof. intros H. unfold mae. rewrite mean_diff. destruct (pairs a b); [congruence|reflexivity]. Qed.
Lemma ub_rmsd_pairs a b m1 m2 : pairs a b <> [] -> mean a = Some m1 -> mean b = Some m2 ->
  ub_rmsd a b = Some (sqrt (avg (map (fun q => (fst q - snd q - (m1 - m2)) ^ 2) (pairs a b)))).
Proof.
  intros H E1 E2. unfold ub_rmsd. cbv zeta. rewrite E1, E2, !sub_scalar_relabel, mean_diff, pairs_relabel.
  destruct (pairs a b) as [|q r] eqn:E; [congruence|]. clear E.
  assert (X : map (fun p => (fst p - snd p) ^ 2) (map (fun p => (fst p - m1, snd p - m2)) (q :: r)) =
              map (fun p => (fst p - snd p - (m1 - m2)) ^ 2) (q :: r)).
  { rewrite map_map. apply map_ext. intros p. cbn [fst snd]. ring. }
  rewrite <- X. reflexivity.
Qed.
Lemma pairs_none_l a b : pairs (sub_scalar a None) b = [].
Proof.
  destruct (pairs (sub_scalar a None) b) as [|[x y] r] eqn:E; [reflexivity|exfalso].
  assert (I : In (x, y) (pairs (sub_scalar a None) b)) by (rewrite E; left; reflexivity).
  apply pairs_in in I. destruct I as [[l H] _]. unfold sub_scalar in H.
  apply in_map_iff in H. destruct H as ([k [v|]] & E2 & _); discriminate E2.
Qed.
Lemma pairs_none_r a b : pairs a (sub_scalar b None) = [].
Proof.
  destruct (pairs a (sub_scalar b None)) as [|[x y] r] eqn:E; [reflexivity|exfalso].
  assert (I : In (x, y) (pairs a (sub_scalar b None))) by (rewrite E; left; reflexivity).
  apply pairs_in in I. destruct I as [_ [l H]]. unfold sub_scalar in H.
  apply in_map_iff in H. destruct H as ([k [v|]] & E2 & _); discriminate E2.
Qed.
Lemma none_pairs a b : pairs a b = [] -> rmsd a b = None /\ mae a b = None /\ ub_rmsd a b = None.
Proof.
  intros H. unfold rmsd, mae. cbv zeta. rewrite !mean_diff, H. repeat split.
  unfold ub_rmsd. cbv zeta. rewrite mean_diff.
  replace (pairs _ _) with (@nil (R * R)); [reflexivity|]. symmetry.
  destruct (mean a) as [m1|]; [|apply pairs_none_l]. destruct (mean b) as [m2|]; [|apply pairs_none_r].
  rewrite !sub_scalar_relabel, pairs_relabel, H. reflexivity.
Qed.

(** ** symmetry *)
Definition joined (a b : series) : list (R * R) :=
  flat_map (fun r => flat_map (fun q => if Z.eqb (fst q) (fst r) then both [(snd r, snd q)] else []) b) a.
Lemma pairs_joined a b : same_index a b = false -> pairs a b = joined a b.
Proof.
  intros E. unfold pairs, align_outer. rewrite E, map_app, both_app.
  replace (both (map snd (map (fun q => (fst q, (None, snd q))) _))) with (@nil (R * R)).
  2:{ symmetry. rewrite map_map. cbn [snd]. induction (filter _ b) as [|[k [v|]] r IH]; simpl; auto. }
  rewrite app_nil_r. unfold joined. clear E. induction a as [|[k v] a IH]; [reflexivity|].
  cbn [flat_map fst snd]. rewrite map_app, both_app, IH. f_equal.
  assert (X : both (map (fun q => (v, snd q)) (matching k b)) =
      flat_map (fun q => if Z.eqb (fst q) k then both [(v, snd q)] else []) b).
  { clear. induction b as [|[k' v'] b IH]; [reflexivity|]. cbn [matching filter flat_map fst snd].
    destruct (Z.eqb k' k); [|exact IH]. cbn [map snd]. change ((v, v') :: ?t) with ([(v, v')] ++ t)%list.
    rewrite both_app. f_equal. exact IH. }
  rewrite <- X. destruct (matching k b) as [|q m]; [destruct v; reflexivity|].
  f_equal. rewrite map_map. reflexivity.
Qed.
Lemma flat_map_nil {A B} (l : list A) : flat_map (fun _ => @nil B) l = [].
Proof. induction l; auto. Qed.
Lemma flat_map_app_perm {A B} (f g : A -> list B) l :
  Permutation (flat_map (fun x => f x ++ g x)%list l) (flat_map f l ++ flat_map g l).
Proof.
  induction l as [|x l IH]; simpl; [reflexivity|]. rewrite IH, <- !app_assoc. apply Permutation_app_head.
  rewrite !app_assoc. apply Permutation_app_tail. apply Permutation_app_comm.
Qed.
Lemma flat_map_swap {A B C} (f : A -> B -> list C) l m :
  Permutation (flat_map (fun x => flat_map (f x) m) l) (flat_map (fun y => flat_map (fun x => f x y) l) m).
Proof.
  induction l as [|x l IH]; simpl; [rewrite flat_map_nil; reflexivity|].
  rewrite IH. symmetry. apply flat_map_app_perm.
Qed.
Lemma map_flat_map {A B C} (g : B -> C) (f : A -> list B) l : map g (flat_map f l) = flat_map (fun x => map g (f x)) l.
Proof. induction l; simpl; [reflexivity|]. rewrite map_app. congruence. Qed.
Definition swap (q : R * R) : R * R := (snd q, fst q).
Lemma pairs_sym a b : Permutation (pairs b a) (map swap (pairs a b)).
Proof.
  destruct (same_index a b) eqn:E.
  - assert (E' : same_index b a = true).
    { unfold same_index in *. destruct (list_eq_dec Z.eq_dec (index a) (index b)); [|discriminate].
      destruct (list_eq_dec Z.eq_dec (index b) (index a)); congruence. }
    unfold pairs, align_outer. rewrite E, E'. unfold same_index in E.
    destruct (list_eq_dec Z.eq_dec (index a) (index b)) as [I|]; [|discriminate]. clear E E'.
    replace (both (map snd (combine (index b) (combine (map snd b) (map snd a))))) with
      (map swap (both (map snd (combine (index a) (combine (map snd a) (map snd b)))))); [reflexivity|].
    revert b I. induction a as [|[k v] a IH]; intros [|[k' v'] b] I; simpl in *; try discriminate; [reflexivity|].
    assert (I2 : index a = index b) by congruence.
    specialize (IH b I2). destruct v, v'; cbn [map both swap fst snd];
      first [exact IH | f_equal; exact IH].
  - assert (E' : same_index b a = false).
    { unfold same_index in *. destruct (list_eq_dec Z.eq_dec (index a) (index b)); [discriminate|].
      destruct (list_eq_dec Z.eq_dec (index b) (index a)); congruence. }
    rewrite (pairs_joined _ _ E), (pairs_joined _ _ E'). unfold joined. rewrite map_flat_map.
    etransitivity; [apply flat_map_swap|]. cbv beta.
    match goal with |- Permutation ?x ?y => replace y with x; [reflexivity|] end.
    apply flat_map_ext. intros [k v]. rewrite map_flat_map. apply flat_map_ext. intros [k' v']. cbn [fst snd].
    rewrite (Z.eqb_sym k k'). destruct (Z.eqb k' k), v, v'; reflexivity.
Qed.

Lemma avg_pairs_sym (f g : R * R -> R) a b : (forall q, f (swap q) = g q) ->
  avg (map f (pairs b a)) = avg (map g (pairs a b)).
Proof.
  intros H. rewrite (avg_perm _ _ (Permutation_map f (pairs_sym a b))), map_map.
  apply avg_map_ext. intros; apply H.
Qed.
Lemma pairs_nil_sym a b : pairs a b = [] -> pairs b a = [].
Proof. intros H. assert (P := pairs_sym a b). rewrite H in P. apply Permutation_nil. symmetry. exact P. Qed.

(** ** complete series *)
Lemma complete_index idx xs : List.length idx = List.length xs -> index (series_of idx xs) = idx.
Proof.
  unfold index, series_of. revert xs. induction idx as [|i idx IH]; intros [|x xs] H; simpl in *; try discriminate; [reflexivity|].
  f_equal. apply IH. lia.
Qed.
Lemma complete_values idx xs : List.length idx = List.length xs -> map snd (series_of idx xs) = map Some xs.
Proof.
  unfold series_of. revert xs. induction idx as [|i idx IH]; intros [|x xs] H; simpl in *; try discriminate; [reflexivity|].
  f_equal. apply IH. lia.
Qed.
Lemma complete_mean idx xs : List.length idx = List.length xs -> xs <> [] -> mean (series_of idx xs) = Some (avg xs).
Proof. intros H Hn. unfold mean. rewrite complete_values, somes_map_Some by exact H. destruct xs; [congruence|reflexivity]. Qed.
Lemma complete_same idx xs ys : List.length idx = List.length xs -> List.length idx = List.length ys ->
  same_index (series_of idx xs) (series_of idx ys) = true.
Proof.
  intros H1 H2. unfold same_index. rewrite !complete_index by assumption. destruct (list_eq_dec Z.eq_dec idx idx); congruence.
Qed.
Lemma both_combine xs ys : both (combine (map Some xs) (map Some ys)) = combine xs ys.
Proof. revert ys. induction xs as [|x xs IH]; intros [|y ys]; simpl; [reflexivity..|]. rewrite IH. reflexivity. Qed.
Lemma complete_inner idx xs ys : List.length idx = List.length xs -> List.length idx = List.length ys ->
  both (align_inner (series_of idx xs) (series_of idx ys)) = combine xs ys.
Proof. intros H1 H2. unfold align_inner. rewrite complete_same, !complete_values, both_combine by assumption. reflexivity. Qed.
Lemma combine_snd {A B} (l : list A) (m : list B) : (List.length m <= List.length l)%nat -> map snd (combine l m) = m.
Proof. revert m. induction l as [|a l IH]; intros [|b m] H; simpl in *; try reflexivity; [lia|]. f_equal. apply IH. lia. Qed.
Lemma combine_fst {A B} (l : list A) (m : list B) : (List.length l <= List.length m)%nat -> map fst (combine l m) = l.
Proof. revert m. induction l as [|a l IH]; intros [|b m] H; simpl in *; try reflexivity; [lia|]. f_equal. apply IH. lia. Qed.
Lemma complete_pairs idx xs ys : List.length idx = List.length xs -> List.length idx = List.length ys ->
  pairs (series_of idx xs) (series_of idx ys) = combine xs ys.
Proof.
  intros H1 H2. unfold pairs, align_outer. rewrite complete_same, complete_index, !complete_values by assumption.
  rewrite combine_snd.
  - apply both_combine.
  - rewrite combine_length, !map_length. lia.
Qed.
Lemma combine_nonempty {A B} (l : list A) (m : list B) : List.length l = List.length m -> l <> [] -> combine l m <> [].
Proof. destruct l, m; simpl; congruence. Qed.
Lemma avg_diff xs ys : List.length xs = List.length ys ->
  avg (map (fun q => fst q - snd q) (combine xs ys)) = avg xs - avg ys.
Proof.
  intros H. rewrite (avg_map_ext _ (fun q => fst q + (-1) * snd q)) by (intros; ring).
  rewrite avg_map_add, avg_map_mul, combine_fst, combine_snd by lia. ring.
Qed.

(** ** Cauchy-Schwarz *)
Lemma dot_nonneg x : 0 <= dot x x.
Proof. induction x as [|a x IH]; simpl; [lra|]. nra. Qed.
Lemma dot_comm x y : dot x y = dot y x.
Proof. revert y. induction x as [|a x IH]; intros [|b y]; simpl; try reflexivity. rewrite IH. ring. Qed.
Lemma cs_step a b S X Y : 0 <= X -> 0 <= Y -> S * S <= X * Y -> 2 * (a * b * S) <= a * a * Y + b * b * X.
Proof.
  intros HX HY H. apply Rsqr_incr_0_var; unfold Rsqr; [|nra].
  apply Rle_trans with (4 * (a * a) * (b * b) * (X * Y)).
  - assert (0 <= 4 * (a * a) * (b * b)) by nra. nra.
  - assert (0 <= (a * a * Y - b * b * X) * (a * a * Y - b * b * X)) by apply Rle_0_sqr.
    replace ((a * a * Y + b * b * X) * (a * a * Y + b * b * X)) with
      ((a * a * Y - b * b * X) * (a * a * Y - b * b * X) + 4 * (a * a) * (b * b) * (X * Y)) by ring. lra.
Qed.
Lemma cauchy_schwarz x : forall y, dot x y * dot x y <= dot x x * dot y y.
Proof.
  induction x as [|a x IH]; intros [|b y]; simpl; try lra.
  assert (C := cs_step a b _ _ _ (dot_nonneg x) (dot_nonneg y) (IH y)). specialize (IH y). nra.
Qed.
Lemma dot_zero x : dot x x = 0 -> forall a, In a x -> a = 0.
Proof.
  induction x as [|b x IH]; simpl; [tauto|]. intros H a. assert (N := dot_nonneg x).
  assert (S := Rle_0_sqr b). unfold Rsqr in S. assert (Z : b * b = 0) by lra. assert (Hx : dot x x = 0) by lra.
  intros [<-|Hi]; [|auto]. apply Rmult_integral in Z. tauto.
Qed.
Lemma dot_zero_l x y : (forall a, In a x -> a = 0) -> dot x y = 0.
Proof.
  revert y. induction x as [|b x IH]; intros [|c y] H; simpl; try reflexivity.
  rewrite (H b) by (left; reflexivity). rewrite IH; [ring|]. intros a Ha. apply H. right; exact Ha.
Qed.
Lemma dot_map_mul c x y : dot (map (fun a => c * a) x) y = c * dot x y.
Proof. revert y. induction x as [|a x IH]; intros [|b y]; simpl; try ring. rewrite IH. ring. Qed.
Lemma dot_combine f g (l : list (R * R)) : dot (map f l) (map g l) = Rsum (map (fun q => f q * g q) l).
Proof. induction l as [|q l IH]; simpl; [reflexivity|]. rewrite IH. reflexivity. Qed.

(** ** correlation *)
Lemma dev_length l : List.length (dev l) = List.length l.
Proof. apply map_length. Qed.
Lemma map_nil_iff {A B} (f : A -> B) l : map f l = [] -> l = [].
Proof. destruct l; simpl; congruence. Qed.
Lemma avg_affine a b l : l <> [] -> avg (map (fun x => a * x + b) l) = a * avg l + b.
Proof.
  intros H. rewrite (avg_map_add (fun x => a * x) (fun _ => b)).
  rewrite (avg_map_mul (fun x => x)), map_id, avg_map_const by exact H. reflexivity.
Qed.
Lemma dev_affine a b l : dev (map (fun x => a * x + b) l) = map (fun x => a * x) (dev l).
Proof.
  destruct l as [|y l]; [reflexivity|]. unfold dev. rewrite avg_affine by discriminate. rewrite !map_map.
  apply map_ext. intros x. ring.
Qed.
Lemma varies_long xs : varies xs -> (2 <= List.length xs)%nat.
Proof.
  intros (x & y & H1 & H2 & Hn). destruct xs as [|a [|b r]]; simpl in *; [tauto| |lia].
  destruct H1 as [<-|[]]. destruct H2 as [<-|[]]. congruence.
Qed.
Lemma dev_zero l : dot (dev l) (dev l) = 0 -> forall x, In x l -> x = avg l.
Proof.
  intros H x Hx. assert (Z : x - avg l = 0); [|lra]. apply (dot_zero _ H). apply in_map_iff. exists x. auto.
Qed.
Lemma varies_pos l : varies l -> 0 < dot (dev l) (dev l).
Proof.
  intros (x & y & H1 & H2 & Hn). assert (N := dot_nonneg (dev l)).
  destruct (Rle_lt_or_eq_dec _ _ N) as [|E]; [assumption|]. symmetry in E.
  rewrite (dev_zero l E x H1) in Hn. rewrite (dev_zero l E y H2) in Hn. congruence.
Qed.
Lemma varies_dec l : varies l \/ (forall x y, In x l -> In y l -> x = y).
Proof.
  induction l as [|a l IH]; [right; simpl; tauto|]. destruct IH as [(x & y & H1 & H2 & H3)|H].
  - left. exists x, y. simpl. auto.
  - destruct l as [|b l]; [right; simpl; intros x y [<-|[]] [<-|[]]; reflexivity|].
    destruct (Req_EM_T a b) as [<-|Hn].
    + right. intros x y [<-|Hx] [<-|Hy]; auto. apply H; [left; reflexivity|exact Hy]. apply H; [exact Hx|left; reflexivity].
    + left. exists a, b. simpl. auto.
Qed.
Lemma const_dev l : (forall x y, In x l -> In y l -> x = y) -> dot (dev l) (dev l) = 0.
Proof.
  intros H. apply dot_zero_l. intros d Hd. apply in_map_iff in Hd. destruct Hd as (x & <- & Hx).
  destruct l as [|a l]; [destruct Hx|].
  assert (E : a :: l = map (fun _ => x) (a :: l)).
  { rewrite <- (map_id (a :: l)) at 1. apply map_ext_in. intros z Hz. apply H; assumption. }
  assert (A : avg (a :: l) = x) by (rewrite E; apply avg_map_const; discriminate). rewrite A. lra.
Qed.

Definition rho (l m : list R) : R := dot (dev l) (dev m) / (sqrt (dot (dev l) (dev l)) * sqrt (dot (dev m) (dev m))).

Lemma cs_sqrt x y : Rabs (dot x y) <= sqrt (dot x x) * sqrt (dot y y).
Proof.
  rewrite <- sqrt_mult by apply dot_nonneg. rewrite <- sqrt_Rsqr_abs. apply sqrt_le_1_alt. apply cauchy_schwarz.
Qed.
Lemma rho_range l m : varies l -> varies m -> -1 <= rho l m <= 1.
Proof.
  intros Hl Hm. apply varies_pos in Hl. apply varies_pos in Hm. assert (C := cs_sqrt (dev l) (dev m)).
  assert (P : 0 < sqrt (dot (dev l) (dev l)) * sqrt (dot (dev m) (dev m))) by (apply Rmult_lt_0_compat; apply sqrt_lt_R0; assumption).
  unfold rho. set (q := sqrt _ * sqrt _) in *. clearbody q. set (s := dot (dev l) (dev m)) in *. clearbody s.
  assert (B := Rabs_def2 s). unfold Rabs in C. destruct (Rcase_abs s); split;
    apply Rmult_le_reg_r with q; try assumption; unfold Rdiv; rewrite Rmult_assoc, Rinv_l by lra; lra.
Qed.
Lemma clip1_id x : -1 <= x <= 1 -> clip1 x = x.
Proof. intros H. unfold clip1, Rmin, Rmax. destruct (Rle_dec x (-1)); destruct (Rle_dec _ 1); lra. Qed.
Lemma sqrt_div_n x n : 0 <= x -> 0 < n -> sqrt (x / n) = sqrt x / sqrt n.
Proof. intros Hx Hn. apply sqrt_div; lra. Qed.
Lemma corrcoef_value l m : List.length l = List.length m -> varies l -> varies m ->
  corrcoef l m = Some (rho l m).
Proof.
  intros Hlm Hl Hm. assert (L := varies_long l Hl). assert (R1 := rho_range l m Hl Hm).
  assert (PX := varies_pos l Hl). assert (PY := varies_pos m Hm).
  assert (N : 0 < INR (List.length l) - 1).
  { apply le_INR in L. simpl in L. lra. }
  unfold corrcoef, cov. rewrite <- Hlm. assert (E : Nat.leb (List.length l) 1 = false) by (apply Nat.leb_gt; lia).
  rewrite E. assert (NZ : forall X, 0 < X -> X / (INR (List.length l) - 1) <> 0).
  { intros X HX Q. assert (0 < X / (INR (List.length l) - 1)) by (apply Rdiv_lt_0_compat; assumption). lra. }
  destruct (Req_EM_T _ 0) as [Q|_]; [exfalso; exact (NZ _ PX Q)|].
  destruct (Req_EM_T _ 0) as [Q|_]; [exfalso; exact (NZ _ PY Q)|]. f_equal.
  rewrite !sqrt_div_n by (try apply dot_nonneg; exact N).
  assert (SX := sqrt_lt_R0 _ PX). assert (SY := sqrt_lt_R0 _ PY). assert (SN := sqrt_lt_R0 _ N).
  replace (dot (dev l) (dev m) / (INR (List.length l) - 1) / (sqrt (dot (dev l) (dev l)) / sqrt (INR (List.length l) - 1)) /
     (sqrt (dot (dev m) (dev m)) / sqrt (INR (List.length l) - 1))) with (rho l m); [apply clip1_id; exact R1|].
  unfold rho. rewrite <- (sqrt_sqrt (INR (List.length l) - 1)) at 1 by lra. field. repeat split; lra.
Qed.
Lemma corrcoef_const l m : ~ varies l \/ ~ varies m -> corrcoef l m = None.
Proof.
  intros H. unfold corrcoef, cov. destruct (Nat.leb (List.length l) 1); [reflexivity|].
  assert (Z : forall l, ~ varies l -> dot (dev l) (dev l) = 0).
  { intros k Hk. destruct (varies_dec k) as [V|C]; [tauto|]. apply const_dev. exact C. }
  destruct (Nat.leb (List.length m) 1); [reflexivity|].
  destruct H as [H|H]; rewrite (Z _ H).
  - unfold Rdiv. rewrite Rmult_0_l. destruct (Req_EM_T 0 0); [reflexivity|lra].
  - destruct (Req_EM_T _ 0); [reflexivity|]. unfold Rdiv. rewrite Rmult_0_l. destruct (Req_EM_T 0 0); [reflexivity|lra].
Qed.
Lemma rho_sym l m : rho l m = rho m l.
Proof. unfold rho. rewrite (dot_comm (dev l)). f_equal. apply Rmult_comm. Qed.
Lemma dot_map_mul2 c x y : dot (map (fun a => c * a) x) (map (fun a => c * a) y) = c * c * dot x y.
Proof. rewrite dot_map_mul, dot_comm, dot_map_mul, dot_comm. ring. Qed.
Lemma rho_affine a b l m : a <> 0 -> varies l -> varies m ->
  rho (map (fun x => a * x + b) l) m = (if Rlt_dec 0 a then 1 else -1) * rho l m.
Proof.
  intros Ha Hl Hm. unfold rho. rewrite !dev_affine, dot_map_mul, dot_map_mul2.
  assert (SX := sqrt_lt_R0 _ (varies_pos l Hl)). assert (SY := sqrt_lt_R0 _ (varies_pos m Hm)).
  rewrite sqrt_mult by (try apply dot_nonneg; apply Rle_0_sqr). change (a * a) with (Rsqr a). rewrite sqrt_Rsqr_abs.
  unfold Rabs. destruct (Rcase_abs a); destruct (Rlt_dec 0 a); try lra; field; repeat split; lra.
Qed.
Lemma varies_map f l : (forall x y, x <> y -> f x <> f y) -> varies l -> varies (map f l).
Proof. intros H (x & y & H1 & H2 & H3). exists (f x), (f y). auto using in_map. Qed.

(** ** ranks *)
Lemma filter_map_length {A B} (f : A -> B) p l : List.length (filter p (map f l)) = List.length (filter (fun x => p (f x)) l).
Proof. induction l as [|x l IH]; simpl; [reflexivity|]. destruct (p (f x)); simpl; congruence. Qed.
Lemma rank_increasing f l x : (forall u v, u < v -> f u < f v) -> rank (map f l) (f x) = rank l x.
Proof.
  intros H. unfold rank. rewrite !filter_map_length. f_equal; [|f_equal; f_equal]; f_equal; f_equal; apply filter_ext; intros y.
  - destruct (Rlt_dec (f y) (f x)) as [a|a]; destruct (Rlt_dec y x) as [b|b]; try reflexivity; exfalso.
    + destruct (Rtotal_order y x) as [c|[c|c]]; [lra|subst; lra|]. apply H in c. lra.
    + apply H in b. lra.
  - destruct (Req_EM_T (f y) (f x)) as [a|a]; destruct (Req_EM_T y x) as [b|b]; try reflexivity; exfalso.
    + destruct (Rtotal_order y x) as [c|[c|c]]; [apply H in c; lra|lra|apply H in c; lra].
    + subst. lra.
Qed.
Lemma rank_count l x :
  (List.length (filter (fun y => if Rlt_dec y x then true else false) l)
   + List.length (filter (fun y => if Req_EM_T y x then true else false) l)
   + List.length (filter (fun y => if Rlt_dec x y then true else false) l) = List.length l)%nat.
Proof.
  induction l as [|y l IH]; simpl; [reflexivity|].
  destruct (Rlt_dec y x); destruct (Req_EM_T y x); destruct (Rlt_dec x y); simpl; try lra; lia.
Qed.
Lemma rank_decreasing f l x : (forall u v, u < v -> f v < f u) ->
  rank (map f l) (f x) = INR (List.length l) + 1 - rank l x.
Proof.
  intros H. unfold rank. rewrite !filter_map_length.
  rewrite (filter_ext (fun y => if Rlt_dec (f y) (f x) then true else false) (fun y => if Rlt_dec x y then true else false)).
  2:{ intros y. destruct (Rlt_dec (f y) (f x)) as [a|a]; destruct (Rlt_dec x y) as [b|b]; try reflexivity; exfalso.
      - destruct (Rtotal_order y x) as [c|[c|c]]; [apply H in c; lra|subst; lra|lra].
      - apply H in b. lra. }
  rewrite (filter_ext (fun y => if Req_EM_T (f y) (f x) then true else false) (fun y => if Req_EM_T y x then true else false)).
  2:{ intros y. destruct (Req_EM_T (f y) (f x)) as [a|a]; destruct (Req_EM_T y x) as [b|b]; try reflexivity; exfalso.
      - destruct (Rtotal_order y x) as [c|[c|c]]; [apply H in c; lra|lra|apply H in c; lra].
      - subst. lra. }
  rewrite <- (rank_count l x), !plus_INR. lra.
Qed.

(** ** perfect correlation *)
Lemma dot_sum x y : dot x y = Rsum (map (fun q => fst q * snd q) (combine x y)).
Proof. revert y. induction x as [|a x IH]; intros [|b y]; simpl; try reflexivity. rewrite IH. reflexivity. Qed.
Lemma dot_fst (x y : list R) : (List.length x <= List.length y)%nat -> dot x x = Rsum (map (fun q : R * R => fst q * fst q) (combine x y)).
Proof. revert y. induction x as [|a x IH]; intros [|b y] H; simpl in *; try reflexivity; [lia|]. rewrite (IH y); [reflexivity|lia]. Qed.
Lemma dot_snd (x y : list R) : (List.length y <= List.length x)%nat -> dot y y = Rsum (map (fun q : R * R => snd q * snd q) (combine x y)).
Proof. revert y. induction x as [|a x IH]; intros [|b y] H; simpl in *; try reflexivity; [lia|]. rewrite (IH y); [reflexivity|lia]. Qed.
Lemma dot_lin a b x y : List.length x = List.length y ->
  Rsum (map (fun q => (a * fst q + b * snd q) ^ 2) (combine x y)) = a ^ 2 * dot x x + 2 * a * b * dot x y + b ^ 2 * dot y y.
Proof.
  intros H. rewrite (dot_fst x y), (dot_snd x y), dot_sum by lia.
  rewrite (map_ext _ (fun q => a ^ 2 * (fst q * fst q) + ((2 * a * b) * (fst q * snd q) + b ^ 2 * (snd q * snd q))))
    by (intros; ring).
  rewrite Rsum_map_add, Rsum_map_add, (Rsum_map_mul (fun q => fst q * fst q)), (Rsum_map_mul (fun q => fst q * snd q)),
    (Rsum_map_mul (fun q => snd q * snd q)). ring.
Qed.
Lemma Rsum_sq_zero {A} (f : A -> R) l : Rsum (map (fun q => f q ^ 2) l) = 0 -> forall q, In q l -> f q = 0.
Proof.
  intros H q Hq. apply (dot_zero (map f l)); [|apply in_map; exact Hq].
  rewrite <- H. clear. induction l as [|x l IH]; [reflexivity|]. cbn [map dot]. rewrite IH.
  unfold Rsum. cbn [fold_right]. ring.
Qed.
Lemma combine_map2 {A B C D'} (f : A -> C) (g : B -> D') l m :
  combine (map f l) (map g m) = map (fun q => (f (fst q), g (snd q))) (combine l m).
Proof. revert m. induction l as [|a l IH]; intros [|b m]; simpl; try reflexivity. rewrite IH. reflexivity. Qed.
Lemma pointwise_map f (l m : list R) : List.length l = List.length m ->
  (forall q, In q (combine l m) -> snd q = f (fst q)) -> m = map f l.
Proof.
  revert m. induction l as [|a l IH]; intros [|b m] H Hf; simpl in *; try discriminate; [reflexivity|].
  f_equal; [apply (Hf (a, b)); left; reflexivity|]. apply IH; [lia|]. intros q Hq. apply Hf. right; exact Hq.
Qed.
Lemma rho_self l : varies l -> rho l l = 1.
Proof.
  intros H. apply varies_pos in H. unfold rho. rewrite sqrt_sqrt by lra. apply Rinv_r. lra.
Qed.
Lemma rho_one l m : List.length l = List.length m -> varies l -> varies m ->
  (rho l m = 1 <-> exists a b, 0 < a /\ m = map (fun x => a * x + b) l).
Proof.
  intros Hlm Hl Hm. split.
  - intros H. assert (PX := varies_pos l Hl). assert (PY := varies_pos m Hm).
    set (X := dot (dev l) (dev l)) in *. set (Y := dot (dev m) (dev m)) in *. set (S := dot (dev l) (dev m)).
    assert (SX := sqrt_lt_R0 _ PX). assert (SY := sqrt_lt_R0 _ PY).
    assert (ES : S = sqrt X * sqrt Y).
    { unfold rho in H. fold X Y S in H. apply (f_equal (fun z => z * (sqrt X * sqrt Y))) in H. unfold Rdiv in H.
      rewrite Rmult_assoc, Rinv_l in H by nra. lra. }
    assert (PS : 0 < S) by (rewrite ES; apply Rmult_lt_0_compat; assumption).
    assert (E2 : S * S = X * Y).
    { rewrite ES. replace (sqrt X * sqrt Y * (sqrt X * sqrt Y)) with ((sqrt X * sqrt X) * (sqrt Y * sqrt Y)) by ring.
      rewrite !sqrt_sqrt by lra. reflexivity. }
    assert (Z : Rsum (map (fun q => (Y * fst q + (- S) * snd q) ^ 2) (combine (dev l) (dev m))) = 0).
    { rewrite dot_lin by (rewrite !dev_length; exact Hlm). fold X Y S. replace (Y ^ 2 * X + 2 * Y * - S * S + (- S) ^ 2 * Y)
        with (Y * (X * Y - S * S)) by ring. rewrite E2. ring. }
    exists (Y / S), (avg m - Y / S * avg l). split; [apply Rdiv_lt_0_compat; assumption|].
    apply pointwise_map; [exact Hlm|]. intros q Hq.
    assert (P := Rsum_sq_zero _ _ Z (fst q - avg l, snd q - avg m)).
    assert (I : In (fst q - avg l, snd q - avg m) (combine (dev l) (dev m))).
    { unfold dev. rewrite combine_map2. apply in_map_iff. exists q. auto. }
    specialize (P I). cbn [fst snd] in P.
    assert (E : snd q - avg m = Y * (fst q - avg l) / S).
    { apply Rmult_eq_reg_l with S; [|lra]. replace (S * (Y * (fst q - avg l) / S)) with (Y * (fst q - avg l)) by (field; lra). lra. }
    replace (snd q) with (snd q - avg m + avg m) by ring. rewrite E. field. lra.
  - intros (a & b & Ha & ->). rewrite rho_sym, rho_affine by (assumption || lra).
    rewrite rho_self by exact Hl. destruct (Rlt_dec 0 a); lra.
Qed.

(** ** least squares *)
Lemma misfit_expand s i xs ys : List.length xs = List.length ys -> xs <> [] ->
  misfit s i xs ys = dot (dev ys) (dev ys) - 2 * s * dot (dev xs) (dev ys) + s ^ 2 * dot (dev xs) (dev xs)
                     + INR (List.length xs) * (avg ys - s * avg xs - i) ^ 2.
Proof.
  intros H Hn. assert (Hc := combine_nonempty xs ys H Hn). unfold misfit.
  set (c := avg ys - s * avg xs - i).
  assert (L : INR (List.length (combine xs ys)) = INR (List.length xs)) by (rewrite combine_length, H, Nat.min_id; reflexivity).
  assert (P := len_pos xs Hn).
  set (e := fun q : R * R => snd q - s * fst q - i).
  assert (A : avg (map e (combine xs ys)) = c).
  { unfold e. rewrite (avg_map_ext _ (fun q => snd q + ((- s) * fst q + - i))) by (intros; ring).
    rewrite avg_map_add, avg_map_add, avg_map_mul, combine_fst, combine_snd, avg_map_const by (lia || assumption). unfold c. ring. }
  assert (Q := avg_sq_shift e c (combine xs ys) Hc). rewrite A in Q. unfold avg in Q. rewrite !map_length, L in Q.
  assert (M : Rsum (map (fun x => (e x - c) ^ 2) (combine xs ys)) =
     dot (dev ys) (dev ys) - 2 * s * dot (dev xs) (dev ys) + s ^ 2 * dot (dev xs) (dev xs)).
  { transitivity (Rsum (map (fun q => ((- s) * fst q + 1 * snd q) ^ 2) (combine (dev xs) (dev ys)))).
    - unfold dev. rewrite combine_map2, map_map. f_equal. apply map_ext. intros q. cbn [fst snd]. unfold e, c. ring.
    - rewrite dot_lin by (rewrite !dev_length; exact H). ring. }
  rewrite M in Q. apply (f_equal (fun z => z * INR (List.length xs))) in Q.
  replace ((dot (dev ys) (dev ys) - 2 * s * dot (dev xs) (dev ys) + s ^ 2 * dot (dev xs) (dev xs)) / INR (List.length xs) * INR (List.length xs))
    with (dot (dev ys) (dev ys) - 2 * s * dot (dev xs) (dev ys) + s ^ 2 * dot (dev xs) (dev xs)) in Q by (field; lra).
  change (fun p : R * R => (snd p - s * fst p - i) ^ 2) with (fun x => e x ^ 2). rewrite Q. field. lra.
Qed.
