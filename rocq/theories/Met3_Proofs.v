(** Lemmas for the correlation metrics on arbitrary series. *)
From Coq Require Import Reals List ZArith Bool Lra Lia Permutation.
From Verif Require Import Base Met_Model Met_Spec Met_Proofs.
Import ListNotations.
Open Scope R_scope.

Lemma both_none_l {A} (f : A -> option R) l : both (map (fun q => (None, f q)) l) = [].
Proof. induction l as [|q l IH]; simpl; [reflexivity|]. exact IH. Qed.

(** the correlations use the pairs of values both series have *)
Lemma inner_pairs a b : both (align_inner a b) = pairs a b.
Proof.
  unfold align_inner, pairs, align_outer. destruct (same_index a b) eqn:E.
  - f_equal. symmetry. apply combine_snd. unfold index. rewrite combine_length, !map_length. lia.
  - rewrite map_app, both_app, map_map. cbn [snd]. rewrite both_none_l, app_nil_r. clear E.
    induction a as [|[k v] a IH]; [reflexivity|]. cbn [flat_map fst snd]. rewrite map_app, !both_app, IH. f_equal.
    destruct (matching k b) as [|q m]; [destruct v; reflexivity|]. rewrite map_map. reflexivity.
Qed.

(** for distinct labels: which pairs these are *)
Lemma matching_in l b q : In q (matching l b) <-> In q b /\ fst q = l.
Proof. unfold matching. rewrite filter_In, Z.eqb_eq. tauto. Qed.
Lemma pairs_value_at a b x y : NoDup (index a) ->
  (In (x, y) (pairs a b) <-> exists l, value_at a l x /\ value_at b l y).
Proof.
  intros N. unfold value_at. destruct (same_index a b) eqn:E.
  - unfold pairs, align_outer. rewrite E. unfold same_index in E.
    destruct (list_eq_dec Z.eq_dec (index a) (index b)) as [I|]; [|discriminate]. clear E.
    rewrite both_in, in_map_iff. revert b I. induction a as [|[k v] a IH]; intros [|[k' v'] b] I; simpl in *; try discriminate.
    + split; [intros (z & _ & []) | intros (l & [] & _)].
    + inversion N as [|? ? N1 N2]; subst. assert (I2 : index a = index b) by congruence. assert (k = k') by congruence. subst k'.
      specialize (IH N2 b I2). split.
      * intros (z & Hz & [H|H]).
        { subst z. simpl in Hz. exists k. inversion Hz; subst. auto. }
        { destruct (proj1 IH (ex_intro _ z (conj Hz H))) as (l & H1 & H2). exists l. auto. }
      * intros (l & [H1|H1] & [H2|H2]).
        { inversion H1; inversion H2; subst. eexists. split; [|left; reflexivity]. reflexivity. }
        { exfalso. apply N1. inversion H1; subst. rewrite I2. apply in_map_iff. exists (l, Some y). auto. }
        { exfalso. apply N1. inversion H2; subst. apply in_map_iff. exists (l, Some x). auto. }
        { destruct (proj2 IH (ex_intro _ l (conj H1 H2))) as (z & Hz & H). exists z. auto. }
  - rewrite (pairs_joined a b E). unfold joined. rewrite in_flat_map. split.
    + intros ([l v] & Ha & H). apply in_flat_map in H. destruct H as ([l' v'] & Hb & H). cbn [fst snd] in H.
      destruct (Z.eqb_spec l' l); [|destruct H]. subst l'. destruct v as [v|], v' as [v'|]; simpl in H; try tauto.
      destruct H as [H|[]]. inversion H; subst. eauto.
    + intros (l & Ha & Hb). exists (l, Some x). split; [exact Ha|]. apply in_flat_map. exists (l, Some y). split; [exact Hb|].
      cbn [fst snd]. rewrite Z.eqb_refl. left; reflexivity.
Qed.

Definition xs_of (p : list (R * R)) := map fst p.
Definition ys_of (p : list (R * R)) := map snd p.
Lemma xy_length p : List.length (xs_of p) = List.length (ys_of p).
Proof. unfold xs_of, ys_of. rewrite !map_length. reflexivity. Qed.

Lemma varies_em l : varies l \/ ~ varies l.
Proof. destruct (varies_dec l) as [H|H]; [left; exact H|right; intros (x & y & H1 & H2 & Hn); auto]. Qed.

Lemma pearson_value a b : varies (xs_of (pairs a b)) -> varies (ys_of (pairs a b)) ->
  pearson a b = Some (rho (xs_of (pairs a b)) (ys_of (pairs a b))).
Proof. intros H1 H2. unfold pearson. cbv zeta. rewrite inner_pairs. apply corrcoef_value; [apply xy_length|exact H1|exact H2]. Qed.
Lemma pearson_none a b : ~ varies (xs_of (pairs a b)) \/ ~ varies (ys_of (pairs a b)) -> pearson a b = None.
Proof. intros H. unfold pearson. cbv zeta. rewrite inner_pairs. apply corrcoef_const. exact H. Qed.
Lemma pearson_cases a b :
  (varies (xs_of (pairs a b)) /\ varies (ys_of (pairs a b)) /\ pearson a b = Some (rho (xs_of (pairs a b)) (ys_of (pairs a b))))
  \/ ((~ varies (xs_of (pairs a b)) \/ ~ varies (ys_of (pairs a b))) /\ pearson a b = None).
Proof.
  destruct (varies_em (xs_of (pairs a b))) as [H1|H1]; [destruct (varies_em (ys_of (pairs a b))) as [H2|H2]|].
  - left. split; [exact H1|]. split; [exact H2|]. apply pearson_value; assumption.
  - right. split; [auto|]. apply pearson_none. auto.
  - right. split; [auto|]. apply pearson_none. auto.
Qed.

Lemma Rsum_perm l m : Permutation l m -> Rsum l = Rsum m.
Proof. induction 1; unfold Rsum in *; simpl; lra. Qed.
Lemma varies_perm l m : Permutation l m -> varies l -> varies m.
Proof. intros P (x & y & H1 & H2 & Hn). exists x, y. split; [|split]; try assumption; eapply Permutation_in; eassumption. Qed.
Lemma dot_dev_pairs (f g : R * R -> R) p : dot (dev (map f p)) (dev (map g p)) =
  Rsum (map (fun q => (f q - avg (map f p)) * (g q - avg (map g p))) p).
Proof.
  unfold dev. rewrite !map_map. generalize (avg (map f p)) (avg (map g p)). intros u v.
  induction p as [|q p IH]; [reflexivity|]. cbn [map dot]. rewrite IH. reflexivity.
Qed.
Lemma dot_dev_perm (f g : R * R -> R) p q : Permutation p q ->
  dot (dev (map f p)) (dev (map g p)) = dot (dev (map f q)) (dev (map g q)).
Proof.
  intros P. rewrite !dot_dev_pairs.
  rewrite (avg_perm _ _ (Permutation_map f P)), (avg_perm _ _ (Permutation_map g P)).
  apply Rsum_perm, Permutation_map, P.
Qed.
Lemma rho_perm p q : Permutation p q -> rho (xs_of p) (ys_of p) = rho (xs_of q) (ys_of q).
Proof.
  intros P. unfold rho, xs_of, ys_of.
  rewrite (dot_dev_perm fst snd p q P), (dot_dev_perm fst fst p q P), (dot_dev_perm snd snd p q P). reflexivity.
Qed.
Lemma swap_xs p : xs_of (map swap p) = ys_of p.
Proof. unfold xs_of, ys_of. rewrite map_map. reflexivity. Qed.
Lemma swap_ys p : ys_of (map swap p) = xs_of p.
Proof. unfold xs_of, ys_of. rewrite map_map. reflexivity. Qed.

Lemma apply_relabel f s : apply f s = relabel (option_map f) s.
Proof. reflexivity. Qed.
Lemma relabel_id s : relabel (option_map (fun x => x)) s = s.
Proof. unfold relabel. rewrite <- (map_id s) at 2. apply map_ext. intros [k [v|]]; reflexivity. Qed.
Lemma pairs_apply_l f a b : pairs (apply f a) b = map (fun q => (f (fst q), snd q)) (pairs a b).
Proof. rewrite <- (relabel_id b) at 1. apply (pairs_relabel f (fun x => x)). Qed.
Lemma pairs_apply f g a b : pairs (apply f a) (apply g b) = map (fun q => (f (fst q), g (snd q))) (pairs a b).
Proof. apply pairs_relabel. Qed.

(** ** spearman *)
Definition rx (p : list (R * R)) := map (rank (xs_of p)) (xs_of p).
Definition ry (p : list (R * R)) := map (rank (ys_of p)) (ys_of p).
Lemma spearman_ranks a b : spearman a b = corrcoef (rx (pairs a b)) (ry (pairs a b)).
Proof. unfold spearman. cbv zeta. rewrite inner_pairs. reflexivity. Qed.
Lemma rx_increasing f p : (forall u v, u < v -> f u < f v) -> rx (map (fun q => (f (fst q), snd q)) p) = rx p.
Proof.
  intros H. unfold rx, xs_of. rewrite !map_map. cbn [fst].
  rewrite <- (map_map fst f p). apply map_ext. intros q. apply rank_increasing. exact H.
Qed.
Lemma ry_fst (f : R -> R) p : ry (map (fun q => (f (fst q), snd q)) p) = ry p.
Proof. unfold ry, ys_of. rewrite !map_map. reflexivity. Qed.
Lemma rx_decreasing f p : (forall u v, u < v -> f v < f u) ->
  rx (map (fun q => (f (fst q), snd q)) p) = map (fun r => (-1) * r + (INR (List.length p) + 1)) (rx p).
Proof.
  intros H. unfold rx, xs_of. rewrite !map_map. cbn [fst].
  rewrite <- (map_map fst f p). apply map_ext. intros q. rewrite rank_decreasing by exact H.
  rewrite map_length. ring.
Qed.
Lemma corrcoef_affine k c l m : k <> 0 -> List.length l = List.length m ->
  corrcoef (map (fun x => k * x + c) l) m = option_map (fun r => (if Rlt_dec 0 k then 1 else -1) * r) (corrcoef l m).
Proof.
  intros Hk Hlm.
  assert (I : forall x y, x <> y -> k * x + c <> k * y + c).
  { intros x y Hn E. apply Hn. apply Rmult_eq_reg_l with k; [lra|exact Hk]. }
  assert (B : varies (map (fun x => k * x + c) l) -> varies l).
  { intros (x & y & H1 & H2 & Hn). apply in_map_iff in H1. apply in_map_iff in H2.
    destruct H1 as (u & <- & H1). destruct H2 as (v & <- & H2). exists u, v. split; [|split]; try assumption. congruence. }
  destruct (varies_em l) as [Hl|Hl].
  2:{ rewrite !corrcoef_const by tauto. reflexivity. }
  destruct (varies_em m) as [Hm|Hm].
  2:{ rewrite !corrcoef_const by tauto. reflexivity. }
  rewrite !corrcoef_value; [|assumption..|rewrite map_length; exact Hlm|apply varies_map; assumption|assumption].
  simpl. f_equal. apply rho_affine; assumption.
Qed.

(** ranks vary when the values vary *)
Lemma rank_lt l x y : In x l -> x < y -> rank l x < rank l y.
Proof.
  intros Hx Hxy. unfold rank.
  set (lt := fun z y => if Rlt_dec y z then true else false). set (eq := fun z y => if Req_EM_T y z then true else false).
  assert (A : (List.length (filter (lt x) l) + List.length (filter (eq x) l) <= List.length (filter (lt y) l))%nat).
  { clear Hx. induction l as [|z l IH]; cbn [filter]; [simpl; lia|]. change (lt x z) with (if Rlt_dec z x then true else false).
    change (eq x z) with (if Req_EM_T z x then true else false). change (lt y z) with (if Rlt_dec z y then true else false).
    destruct (Rlt_dec z x), (Req_EM_T z x), (Rlt_dec z y); simpl; try lia; exfalso; lra. }
  assert (B : (1 <= List.length (filter (eq x) l))%nat).
  { assert (I : In x (filter (eq x) l)). { apply filter_In. split; [exact Hx|]. unfold eq. destruct (Req_EM_T x x); congruence. }
    destruct (filter (eq x) l); [destruct I|simpl; lia]. }
  apply le_INR in A. apply le_INR in B. rewrite plus_INR in A. simpl in B.
  assert (C := pos_INR (List.length (filter (eq y) l))). 
  change (INR (List.length (filter (lt x) l)) + (INR (List.length (filter (eq x) l)) + 1) / 2
          < INR (List.length (filter (lt y) l)) + (INR (List.length (filter (eq y) l)) + 1) / 2). lra.
Qed.
Lemma ranks_vary l : varies l <-> varies (map (rank l) l).
Proof.
  split.
  - intros (x & y & H1 & H2 & Hn). exists (rank l x), (rank l y). split; [apply in_map; exact H1|]. split; [apply in_map; exact H2|].
    destruct (Rtotal_order x y) as [H|[H|H]]; [|congruence|].
    + assert (Q := rank_lt l x y H1 H). lra.
    + assert (Q := rank_lt l y x H2 H). lra.
  - intros (x & y & H1 & H2 & Hn). apply in_map_iff in H1. apply in_map_iff in H2.
    destruct H1 as (u & <- & H1). destruct H2 as (v & <- & H2). exists u, v. split; [|split]; congruence || assumption.
Qed.

(** ** mape *)
Definition rel (q : R * R) : num := fabs (fdiv (fst q - snd q) (fst q)).
Definition usable (x : num) : bool := match x with NaN => false | _ => true end.
Lemma mape_pairs a b : mape a b = fmean (map rel (pairs a b)).
Proof.
  unfold mape, fmean, pairs. fold usable. replace (filter usable (map rel (both (map snd (align_outer a b))))) with
   (filter usable (map (fun r => fabs (rel_diff (fst (snd r)) (snd (snd r)))) (align_outer a b))); [reflexivity|].
  induction (align_outer a b) as [|[l [[x|] [y|]]] r IH]; cbn [map both snd fst rel_diff osub fabs filter]; try exact IH; [reflexivity|].
  unfold rel at 1. cbn [fst snd]. destruct (usable _); [f_equal|]; exact IH.
Qed.
Lemma rel_zero q : fst q = 0 -> snd q = 0 -> rel q = NaN.
Proof.
  intros H1 H2. unfold rel, fdiv. rewrite H1, H2. destruct (Req_EM_T 0 0); [|congruence].
  destruct (Req_EM_T (0 - 0) 0); [reflexivity|lra].
Qed.
Lemma rel_inf q : fst q = 0 -> snd q <> 0 -> rel q = Inf true.
Proof.
  intros H1 H2. unfold rel, fdiv. rewrite H1. destruct (Req_EM_T 0 0); [|congruence].
  destruct (Req_EM_T (0 - snd q) 0); [exfalso; apply H2; lra|reflexivity].
Qed.
Lemma rel_fin q : fst q <> 0 -> rel q = Fin (Rabs ((fst q - snd q) / fst q)).
Proof. intros H. unfold rel, fdiv. destruct (Req_EM_T (fst q) 0); [congruence|reflexivity]. Qed.

Lemma some_inj {A} (x y : A) : Some x = Some y -> x = y.
Proof. congruence. Qed.
