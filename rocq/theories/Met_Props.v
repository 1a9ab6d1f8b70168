(** Properties C44-C47, C86-C89: the metrics (rt1/rtmetrics.py).
    Only property theorems, examples and assumption listings. *)
From Coq Require Import Reals List ZArith Bool String Lra Lia Permutation.
From Verif Require Import Base Base_Proofs GF_Model Str_Model Str_Proofs Met_Model Met_Spec Met_Proofs Met2_Proofs.
Import ListNotations.
Open Scope R_scope.

Lemma sq_sqrt_avg {A} (f : A -> R) l : sqrt (avg (map (fun q => f q ^ 2) l)) ^ 2 = avg (map (fun q => f q ^ 2) l).
Proof. rewrite <- Rsqr_pow2. apply Rsqr_sqrt. apply avg_nonneg. intros x. apply pow2_ge_0. Qed.

Lemma Some_inj {A} (x y : A) : Some x = Some y -> x = y.
Proof. congruence. Qed.

(** ** C44 decomposition of the RMSD *)
Theorem C44_decomposition : forall idx xs ys,
  List.length idx = List.length xs -> List.length idx = List.length ys -> idx <> [] ->
  exists r u m, rmsd (series_of idx xs) (series_of idx ys) = Some r /\
    ub_rmsd (series_of idx xs) (series_of idx ys) = Some u /\
    bias (series_of idx xs) (series_of idx ys) = Some m /\
    r ^ 2 = m ^ 2 + u ^ 2.
Proof.
  intros idx xs ys H1 H2 Hn. assert (Nx : xs <> []) by (destruct xs, idx; simpl in *; congruence).
  assert (Ny : ys <> []) by (destruct ys, idx; simpl in *; congruence).
  assert (P := complete_pairs idx xs ys H1 H2). assert (Hc := combine_nonempty xs ys ltac:(congruence) Nx).
  assert (M1 := complete_mean idx xs H1 Nx). assert (M2 := complete_mean idx ys H2 Ny).
  rewrite rmsd_pairs, (ub_rmsd_pairs _ _ _ _ ltac:(rewrite P; exact Hc) M1 M2) by (rewrite P; exact Hc).
  unfold bias. rewrite M1, M2, P. do 3 eexists. split; [reflexivity|]. split; [reflexivity|]. split; [reflexivity|].
  rewrite (sq_sqrt_avg (fun q => fst q - snd q)), (sq_sqrt_avg (fun q => fst q - snd q - (avg xs - avg ys))).
  rewrite (avg_sq_shift (fun q => fst q - snd q)) by exact Hc. rewrite avg_diff by congruence. ring.
Qed.
Print Assumptions C44_decomposition.

(** In general (missing values, different labels) the identity holds exactly
    when the bias is zero or equals the mean difference of the values that
    both series have. *)
Theorem C44_general : forall a b, pairs a b <> [] ->
  exists r u m, rmsd a b = Some r /\ ub_rmsd a b = Some u /\ bias a b = Some m /\
    (r ^ 2 = m ^ 2 + u ^ 2 <-> m = 0 \/ m = avg (map (fun q => fst q - snd q) (pairs a b))).
Proof.
  intros a b Hp. destruct (pairs_means a b Hp) as (m1 & m2 & M1 & M2).
  rewrite (rmsd_pairs _ _ Hp), (ub_rmsd_pairs _ _ _ _ Hp M1 M2). unfold bias. rewrite M1, M2.
  do 3 eexists. split; [reflexivity|]. split; [reflexivity|]. split; [reflexivity|].
  rewrite (sq_sqrt_avg (fun q => fst q - snd q)), (sq_sqrt_avg (fun q => fst q - snd q - (m1 - m2))).
  rewrite (avg_sq_shift (fun q => fst q - snd q)) by exact Hp.
  set (d := avg _). set (e := avg (map (fun q => fst q - snd q) _)). split.
  - intros H. assert (Z : (m1 - m2) * (m1 - m2 - e) = 0) by nra. apply Rmult_integral in Z. lra.
  - intros [H|H]; rewrite H; ring.
Qed.
Print Assumptions C44_general.

Theorem C44_gaps_refuted : exists a b r u m,
  index a = index b /\ rmsd a b = Some r /\ ub_rmsd a b = Some u /\ bias a b = Some m /\ r ^ 2 <> m ^ 2 + u ^ 2.
Proof.
  set (a := [(1%Z, Some 0); (2%Z, Some 4)]). set (b := [(1%Z, Some 0); (2%Z, None)]).
  assert (P : pairs a b = [(0, 0)]).
  { unfold pairs, align_outer. replace (same_index a b) with true; [reflexivity|]. unfold same_index.
    destruct (list_eq_dec _ _ _); [reflexivity|]. exfalso. apply n. reflexivity. }
  destruct (C44_general a b) as (r & u & m & H1 & H2 & H3 & H4); [rewrite P; discriminate|].
  exists a, b, r, u, m. split; [reflexivity|]. split; [exact H1|]. split; [exact H2|]. split; [exact H3|].
  rewrite H4, P. unfold bias, mean, avg, a, b in H3. simpl in H3. inversion H3. unfold avg. simpl. lra.
Qed.
Print Assumptions C44_gaps_refuted.

Example C44_example : exists r u m,
  rmsd (series_of [10; 20]%Z [3; 1]) (series_of [10; 20]%Z [1; 1]) = Some r /\
  ub_rmsd (series_of [10; 20]%Z [3; 1]) (series_of [10; 20]%Z [1; 1]) = Some u /\
  bias (series_of [10; 20]%Z [3; 1]) (series_of [10; 20]%Z [1; 1]) = Some m /\ r ^ 2 = 2 /\ u ^ 2 = 1 /\ m = 1.
Proof.
  assert (P := complete_pairs [10; 20]%Z [3; 1] [1; 1] eq_refl eq_refl).
  assert (M1 := complete_mean [10; 20]%Z [3; 1] eq_refl ltac:(discriminate)).
  assert (M2 := complete_mean [10; 20]%Z [1; 1] eq_refl ltac:(discriminate)).
  rewrite rmsd_pairs, (ub_rmsd_pairs _ _ _ _ ltac:(rewrite P; discriminate) M1 M2) by (rewrite P; discriminate).
  unfold bias. rewrite M1, M2, P. do 3 eexists. split; [reflexivity|]. split; [reflexivity|]. split; [reflexivity|].
  rewrite (sq_sqrt_avg (fun q => fst q - snd q)), (sq_sqrt_avg (fun q => fst q - snd q - (avg [3; 1] - avg [1; 1]))).
  unfold avg. simpl. repeat split; lra.
Qed.

(** ** C45 inequalities and symmetries *)
(** for all series: symmetry, antisymmetry, mae <= rmsd, zero on equal series *)
Theorem C45_symmetric : forall a b,
  rmsd b a = rmsd a b /\ mae b a = mae a b /\ ub_rmsd b a = ub_rmsd a b /\
  bias b a = option_map Ropp (bias a b).
Proof.
  intros a b. repeat split.
  4:{ unfold bias. destruct (mean a), (mean b); simpl; try reflexivity. f_equal. ring. }
  all: destruct (pairs a b) as [|q l] eqn:E.
  1, 3, 5: destruct (none_pairs a b E) as (E1 & E2 & E3); destruct (none_pairs b a (pairs_nil_sym a b E)) as (F1 & F2 & F3); congruence.
  all: assert (Ha : pairs a b <> []) by (rewrite E; discriminate).
  all: assert (Hb : pairs b a <> []) by (intros Q; apply pairs_nil_sym in Q; congruence).
  - rewrite !rmsd_pairs by assumption. do 2 f_equal. apply avg_pairs_sym. intros p. unfold swap. simpl. ring.
  - rewrite !mae_pairs by assumption. f_equal. apply avg_pairs_sym. intros p. unfold swap. simpl. apply Rabs_minus_sym.
  - destruct (pairs_means a b Ha) as (m1 & m2 & M1 & M2).
    rewrite (ub_rmsd_pairs _ _ _ _ Ha M1 M2), (ub_rmsd_pairs _ _ _ _ Hb M2 M1).
    do 2 f_equal. apply avg_pairs_sym. intros p. unfold swap. simpl. ring.
Qed.
Print Assumptions C45_symmetric.

Theorem C45_mae_le_rmsd : forall a b m r, mae a b = Some m -> rmsd a b = Some r -> 0 <= m <= r.
Proof.
  intros a b m r Hm Hr. destruct (pairs a b) as [|q l] eqn:E.
  { destruct (none_pairs a b E) as (E1 & E2 & E3). congruence. }
  assert (Ha : pairs a b <> []) by (rewrite E; discriminate). clear E.
  rewrite mae_pairs in Hm by exact Ha. rewrite rmsd_pairs in Hr by exact Ha. injection Hm as <-. apply Some_inj in Hr. subst r.
  set (f := fun q : R * R => Rabs (fst q - snd q)). assert (Hf : 0 <= avg (map f (pairs a b))).
  { apply avg_nonneg. intros x. apply Rabs_pos. }
  split; [exact Hf|]. apply Rsqr_incr_0_var; [|apply sqrt_pos]. rewrite Rsqr_sqrt by (apply avg_nonneg; intros; apply pow2_ge_0).
  assert (Q := avg_sq_shift f (avg (map f (pairs a b))) (pairs a b) Ha).
  assert (S : 0 <= avg (map (fun x => (f x - avg (map f (pairs a b))) ^ 2) (pairs a b))) by (apply avg_nonneg; intros; apply pow2_ge_0).
  replace (avg (map (fun x => f x ^ 2) (pairs a b))) with (avg (map (fun q => (fst q - snd q) ^ 2) (pairs a b))) in Q.
  2:{ apply avg_map_ext. intros x _. unfold f. symmetry. apply pow2_abs. }
  unfold Rsqr. nra.
Qed.
Print Assumptions C45_mae_le_rmsd.

Theorem C45_zero : forall a x l, In (l, Some x) a ->
  rmsd a a = Some 0 /\ mae a a = Some 0 /\ ub_rmsd a a = Some 0 /\ bias a a = Some 0.
Proof.
  intros a x l Hi.
  assert (Hd : forall q, In q (pairs a a) -> fst q = snd q).
  { unfold pairs, align_outer, same_index. destruct (list_eq_dec Z.eq_dec (index a) (index a)); [|congruence].
    clear. induction a as [|[k [v|]] a IH]; simpl; [tauto| |exact IH]. intros q [<-|H]; [reflexivity|auto]. }
  assert (Hp : pairs a a <> []).
  { unfold pairs, align_outer, same_index. destruct (list_eq_dec Z.eq_dec (index a) (index a)); [|congruence].
    clear - Hi. induction a as [|[k [v|]] a IH]; simpl in *; [tauto|discriminate|]. destruct Hi as [Hi|Hi]; [discriminate|auto]. }
  destruct (mean_some a l x Hi) as [m M].
  assert (Z : forall f, (forall q : R * R, In q (pairs a a) -> f q = 0) -> avg (map f (pairs a a)) = 0).
  { intros f Hf. rewrite (avg_map_ext f (fun _ => 0)) by exact Hf. apply avg_map_const. exact Hp. }
  rewrite rmsd_pairs, mae_pairs, (ub_rmsd_pairs _ _ _ _ Hp M M) by exact Hp. unfold bias. rewrite M. simpl osub.
  repeat split; f_equal.
  - rewrite Z; [apply sqrt_0|]. intros q Hq. rewrite (Hd q Hq). ring.
  - rewrite Z; [reflexivity|]. intros q Hq. rewrite (Hd q Hq), Rminus_diag_eq by reflexivity. apply Rabs_R0.
  - rewrite Z; [apply sqrt_0|]. intros q Hq. rewrite (Hd q Hq). ring.
  - ring.
Qed.
Print Assumptions C45_zero.

(** for complete series with the same labels: |bias| <= mae, ub_rmsd <= rmsd,
    triangle inequality, a vanishing rmsd means equal series *)
Theorem C45_complete : forall idx xs ys,
  List.length idx = List.length xs -> List.length idx = List.length ys -> idx <> [] ->
  exists r u m b, rmsd (series_of idx xs) (series_of idx ys) = Some r /\
    ub_rmsd (series_of idx xs) (series_of idx ys) = Some u /\
    mae (series_of idx xs) (series_of idx ys) = Some m /\
    bias (series_of idx xs) (series_of idx ys) = Some b /\
    Rabs b <= m /\ m <= r /\ 0 <= u <= r /\ (r = 0 -> xs = ys).
Proof.
  intros idx xs ys H1 H2 Hn. destruct (C44_decomposition idx xs ys H1 H2 Hn) as (r & u & b & Hr & Hu & Hb & E).
  assert (Nx : xs <> []) by (destruct xs, idx; simpl in *; congruence).
  assert (P := complete_pairs idx xs ys H1 H2). assert (Hc := combine_nonempty xs ys ltac:(congruence) Nx).
  assert (Hm := mae_pairs (series_of idx xs) (series_of idx ys) ltac:(rewrite P; exact Hc)). rewrite P in Hm.
  exists r, u. eexists. exists b. split; [exact Hr|]. split; [exact Hu|]. split; [exact Hm|]. split; [exact Hb|].
  assert (Hr0 : 0 <= r).
  { rewrite rmsd_pairs in Hr by (rewrite P; exact Hc). inversion Hr. apply sqrt_pos. }
  assert (Hu0 : 0 <= u).
  { rewrite (ub_rmsd_pairs _ _ _ _ ltac:(rewrite P; exact Hc) (complete_mean idx xs H1 Nx)
      (complete_mean idx ys H2 ltac:(destruct ys, idx; simpl in *; congruence))) in Hu. inversion Hu. apply sqrt_pos. }
  split; [|split; [|split]].
  - unfold bias in Hb. rewrite !complete_mean in Hb by (try assumption; destruct ys, idx; simpl in *; congruence).
    simpl in Hb. inversion Hb. rewrite <- avg_diff by congruence.
    assert (A1 := avg_le (fun q => fst q - snd q) (fun q => Rabs (fst q - snd q)) (combine xs ys) (fun q _ => Rle_abs _)).
    assert (A2 := avg_le (fun q => (-1) * (fst q - snd q)) (fun q => Rabs (fst q - snd q)) (combine xs ys)).
    rewrite avg_map_mul in A2. apply Rabs_le. split; [|exact A1].
    assert (A3 := A2 (fun q _ => ltac:(replace (-1 * (fst q - snd q)) with (- (fst q - snd q)) by ring; rewrite <- Rabs_Ropp; apply Rle_abs))).
    lra.
  - apply (C45_mae_le_rmsd _ _ _ _ Hm Hr).
  - split; [exact Hu0|]. apply Rsqr_incr_0_var; [|exact Hr0]. unfold Rsqr. nra.
  - intros Z. subst r. rewrite rmsd_pairs in Hr by (rewrite P; exact Hc). rewrite P in Hr. apply Some_inj in Hr. rename Hr into S.
    assert (A : avg (map (fun q => (fst q - snd q) ^ 2) (combine xs ys)) = 0).
    { rewrite <- (sq_sqrt_avg (fun q => fst q - snd q)), S. ring. }
    unfold avg in A. rewrite map_length in A. assert (L := len_pos _ Hc).
    assert (A' : Rsum (map (fun q => (fst q - snd q) ^ 2) (combine xs ys)) = 0).
    { apply Rmult_eq_reg_r with (/ INR (List.length (combine xs ys))); [|apply Rinv_neq_0_compat; lra]. unfold Rdiv in A. rewrite A. ring. }
    assert (Q := Rsum_sq_zero _ _ A'). rewrite (pointwise_map (fun x => x) xs ys); [symmetry; apply map_id|congruence|].
    intros q Hq. apply Q in Hq. lra.
Qed.
Print Assumptions C45_complete.

Theorem C45_triangle : forall idx xs ys zs,
  List.length idx = List.length xs -> List.length idx = List.length ys -> List.length idx = List.length zs -> idx <> [] ->
  exists rxy ryz rxz, rmsd (series_of idx xs) (series_of idx ys) = Some rxy /\
    rmsd (series_of idx ys) (series_of idx zs) = Some ryz /\ rmsd (series_of idx xs) (series_of idx zs) = Some rxz /\
    rxz <= rxy + ryz.
Proof.
  intros idx xs ys zs H1 H2 H3 Hn.
  assert (Nx : xs <> []) by (destruct xs, idx; simpl in *; congruence).
  assert (Ny : ys <> []) by (destruct ys, idx; simpl in *; congruence).
  rewrite !rmsd_pairs, !complete_pairs by (try assumption; rewrite complete_pairs by assumption; apply combine_nonempty; congruence).
  do 3 eexists. split; [reflexivity|]. split; [reflexivity|]. split; [reflexivity|].
  set (f := fun q : R * R => fst q - snd q). set (u := map f (combine xs ys)). set (v := map f (combine ys zs)).
  assert (Lu : List.length u = List.length xs) by (unfold u; rewrite map_length, combine_length; lia).
  assert (Lv : List.length v = List.length xs) by (unfold v; rewrite map_length, combine_length; lia).
  assert (Sq : forall a b, List.length a = List.length b -> List.length a = List.length xs ->
     avg (map (fun q => (fst q - snd q) ^ 2) (combine a b)) = dot (map f (combine a b)) (map f (combine a b)) / INR (List.length xs)).
  { intros a b E1 E2. unfold avg. rewrite map_length, combine_length, <- E1, Nat.min_id, E2. f_equal.
    rewrite dot_combine. f_equal. apply map_ext. intros q. unfold f. ring. }
  rewrite !Sq by congruence. fold u v.
  assert (W : dot (map f (combine xs zs)) (map f (combine xs zs)) = dot u u + 2 * dot u v + dot v v).
  { transitivity (Rsum (map (fun q => (1 * fst q + 1 * snd q) ^ 2) (combine u v))).
    - unfold u, v. clear - H1 H2 H3. assert (E : List.length xs = List.length ys) by congruence.
      assert (E' : List.length xs = List.length zs) by congruence. clear H1 H2 H3. revert ys zs E E'.
      induction xs as [|x xs IH]; intros [|y ys] [|z zs] E E'; try discriminate; [reflexivity|].
      cbn [combine map dot]. rewrite (IH ys zs) by (simpl in *; lia). unfold Rsum. cbn [fold_right]. unfold f. cbn [fst snd]. ring.
    - rewrite dot_lin by congruence. ring. }
  rewrite W. assert (L := len_pos xs Nx). assert (NN := dot_nonneg). unfold Rdiv.
  set (i := / INR (List.length xs)). assert (Hi : 0 <= i) by (apply Rlt_le, Rinv_0_lt_compat, L).
  rewrite !sqrt_mult_alt by (try apply NN; rewrite <- W; apply NN).
  rewrite <- Rmult_plus_distr_r. apply Rmult_le_compat_r; [apply sqrt_pos|].
  apply Rsqr_incr_0_var; [|assert (A := sqrt_pos (dot u u)); assert (B := sqrt_pos (dot v v)); lra].
  rewrite Rsqr_sqrt by (rewrite <- W; apply NN). unfold Rsqr.
  assert (CS := cs_sqrt u v). assert (A := Rle_abs (dot u v)).
  assert (S1 := sqrt_sqrt (dot u u) (NN u)). assert (S2 := sqrt_sqrt (dot v v) (NN v)). nra.
Qed.
Print Assumptions C45_triangle.

Theorem C45_ub_invariant : forall c a b, ub_rmsd (shift c a) b = ub_rmsd a b /\ ub_rmsd a (shift c b) = ub_rmsd a b.
Proof.
  assert (L : forall c a b, ub_rmsd (shift c a) b = ub_rmsd a b).
  { intros c a b. change (shift c a) with (relabel (option_map (fun x => x + c)) a).
    assert (Eb : b = relabel (option_map (fun x => x)) b).
    { clear. unfold relabel. symmetry. rewrite <- (map_id b) at 2. apply map_ext. intros [k [v|]]; reflexivity. }
    assert (P : pairs (relabel (option_map (fun x => x + c)) a) b = map (fun p => (fst p + c, snd p)) (pairs a b)).
    { rewrite Eb at 1. apply pairs_relabel. }
    destruct (pairs a b) as [|q l] eqn:E.
    - rewrite (proj2 (proj2 (none_pairs _ _ P))). symmetry. apply (none_pairs _ _ E).
    - assert (Ha : pairs a b <> []) by (rewrite E; discriminate). destruct (pairs_means a b Ha) as (m1 & m2 & M1 & M2).
      assert (M1' : mean (relabel (option_map (fun x => x + c)) a) = Some (m1 + c)).
      { unfold mean, relabel in *. rewrite map_map. cbn [snd].
        replace (map (fun x => option_map (fun x0 : R => x0 + c) (snd x)) a) with (map (option_map (fun x => x + c)) (map snd a)) by (rewrite map_map; reflexivity).
        rewrite somes_map. destruct (somes (map snd a)) as [|z r] eqn:Ez; [discriminate|]. inversion M1.
        cbn [map]. f_equal. change (avg (map (fun x => x + c) (z :: r)) = avg (z :: r) + c). rewrite (avg_map_add (fun x => x) (fun _ => c)), map_id, avg_map_const by discriminate. reflexivity. }
      rewrite (ub_rmsd_pairs _ _ _ _ Ha M1 M2), (ub_rmsd_pairs _ _ (m1 + c) m2); [|rewrite P; discriminate|exact M1'|exact M2].
      rewrite P, E, map_map. do 2 f_equal. apply avg_map_ext. intros p _. cbn [fst snd]. ring. }
  intros c a b. split; [apply L|]. rewrite <- (proj1 (proj2 (proj2 (C45_symmetric a (shift c b))))).
  rewrite L. apply C45_symmetric.
Qed.
Print Assumptions C45_ub_invariant.

(** with missing values |bias| <= mae and ub_rmsd <= rmsd can fail *)
Theorem C45_gaps_refuted : exists a b r u m d,
  index a = index b /\ rmsd a b = Some r /\ ub_rmsd a b = Some u /\ mae a b = Some m /\ bias a b = Some d /\
  m < Rabs d /\ r < u.
Proof.
  set (a := [(1%Z, Some 0); (2%Z, Some 4)]). set (b := [(1%Z, Some 0); (2%Z, None)]).
  assert (P : pairs a b = [(0, 0)]).
  { unfold pairs, align_outer. replace (same_index a b) with true; [reflexivity|]. unfold same_index.
    destruct (list_eq_dec _ _ _); [reflexivity|]. exfalso. apply n. reflexivity. }
  assert (M1 : mean a = Some (avg [0; 4])) by reflexivity. assert (M2 : mean b = Some (avg [0])) by reflexivity.
  assert (Hp : pairs a b <> []) by (rewrite P; discriminate).
  exists a, b. do 4 eexists. split; [reflexivity|]. rewrite rmsd_pairs, mae_pairs, (ub_rmsd_pairs _ _ _ _ Hp M1 M2) by exact Hp.
  split; [reflexivity|]. split; [reflexivity|]. split; [reflexivity|]. unfold bias. rewrite M1, M2. split; [reflexivity|].
  rewrite P. unfold avg. simpl. split.
  - replace ((0 + (4 + 0)) / (1 + 1) - (0 + 0) / 1) with 2 by field. rewrite Rminus_0_r, Rabs_R0.
    rewrite (Rabs_pos_eq 2) by lra. lra.
  - apply sqrt_lt_1_alt. split; lra.
Qed.
Print Assumptions C45_gaps_refuted.

Example C45_example : exists r,
  rmsd [(1%Z, Some 0); (2%Z, Some 4)] [(2%Z, Some 1); (3%Z, Some 7)] = Some r /\ r = 3.
Proof.
  set (a := [(1%Z, Some 0); (2%Z, Some 4)]). set (b := [(2%Z, Some 1); (3%Z, Some 7)]).
  assert (P : pairs a b = [(4, 1)]).
  { unfold pairs, align_outer. replace (same_index a b) with false; [reflexivity|]. unfold same_index.
    destruct (list_eq_dec _ _ _) as [E|]; [discriminate E|reflexivity]. }
  rewrite rmsd_pairs by (rewrite P; discriminate). eexists. split; [reflexivity|]. rewrite P. unfold avg. simpl.
  replace (((4 - 1) * ((4 - 1) * 1) + 0) / 1) with (3 * 3) by field. apply sqrt_square. lra.
Qed.
