(** Properties C46, C47, C86-C89: correlations, regression, relative error and
    the keys of the metrics (rt1/rtmetrics.py).
    Only property theorems, examples and assumption listings. *)
From Coq Require Import Reals List ZArith Bool String Lra Lia Permutation.
From Verif Require Import Base Base_Proofs GF_Model Str_Model Str_Proofs Met_Model Met_Spec Met_Proofs Met2_Proofs Met3_Proofs.
Import ListNotations.
Open Scope R_scope.

(** ** the pairs of values the metrics see *)
Theorem C46_common_values : forall a b x y, NoDup (index a) ->
  (In (x, y) (pairs a b) <-> exists l, value_at a l x /\ value_at b l y).
Proof. intros a b x y N. apply pairs_value_at. exact N. Qed.
Print Assumptions C46_common_values.

(** ** C46 Pearson correlation *)
(** the value is the textbook quotient, lies in [-1, 1] (so the clipping has
    no effect), and is undefined exactly if one of the series is constant *)
Theorem C46_value : forall a b,
  let xs := map fst (pairs a b) in let ys := map snd (pairs a b) in
  let c := fun u v => Rsum (map (fun q => (fst q - avg u) * (snd q - avg v)) (combine u v)) in
  (varies xs /\ varies ys -> exists r, pearson a b = Some r /\ r = c xs ys / (sqrt (c xs xs) * sqrt (c ys ys)) /\ -1 <= r <= 1)
  /\ (~ varies xs \/ ~ varies ys -> pearson a b = None).
Proof.
  intros a b xs ys c. split; [|apply pearson_none]. intros [H1 H2].
  exists (rho xs ys). split; [apply pearson_value; assumption|]. split; [|apply rho_range; assumption].
  assert (E : forall u v, dot (dev u) (dev v) = c u v).
  { intros u v. unfold c. rewrite dot_sum. unfold dev. rewrite combine_map2, map_map. reflexivity. }
  unfold rho. rewrite !E. reflexivity.
Qed.
Print Assumptions C46_value.

Theorem C46_symmetric : forall a b, pearson b a = pearson a b.
Proof.
  intros a b. assert (P := pairs_sym a b).
  assert (X : Permutation (xs_of (pairs b a)) (ys_of (pairs a b))).
  { rewrite <- swap_xs. apply Permutation_map. exact P. }
  assert (Y : Permutation (ys_of (pairs b a)) (xs_of (pairs a b))).
  { rewrite <- swap_ys. apply Permutation_map. exact P. }
  destruct (pearson_cases a b) as [(H1 & H2 & E)|[H E]].
  - rewrite E, (pearson_value b a).
    + f_equal. rewrite (rho_perm _ _ P), swap_xs, swap_ys. apply rho_sym.
    + exact (varies_perm _ _ (Permutation_sym X) H2).
    + exact (varies_perm _ _ (Permutation_sym Y) H1).
  - rewrite E. apply pearson_none. destruct H as [H|H]; [right|left]; intros V; apply H; eapply varies_perm; eassumption.
Qed.
Print Assumptions C46_symmetric.

Theorem C46_affine : forall k c a b, k <> 0 ->
  pearson (apply (fun x => k * x + c) a) b = option_map (fun r => (if Rlt_dec 0 k then 1 else -1) * r) (pearson a b).
Proof.
  intros k c a b Hk. unfold pearson. cbv zeta. rewrite !inner_pairs, pairs_apply_l, !map_map. cbn [fst snd].
  rewrite <- (corrcoef_affine k c); [|exact Hk|rewrite !map_length; reflexivity]. rewrite map_map. reflexivity.
Qed.
Print Assumptions C46_affine.

(** the extreme values are attained exactly by affine relations *)
Theorem C46_extreme : forall a b, let p := pairs a b in
  varies (map fst p) -> varies (map snd p) ->
  (pearson a b = Some 1 <-> exists k c, 0 < k /\ forall q, In q p -> snd q = k * fst q + c) /\
  (pearson a b = Some (-1) <-> exists k c, k < 0 /\ forall q, In q p -> snd q = k * fst q + c).
Proof.
  intros a b p H1 H2.
  assert (G : forall xs : list R, forall p, (exists k c, 0 < k /\ map snd p = map (fun x => k * x + c) (map fst p)) <->
      exists k c, 0 < k /\ forall q : R * R, In q p -> snd q = k * fst q + c).
  { intros _ r. split; intros (k & c & Hk & H); exists k, c; (split; [exact Hk|]).
    - intros q Hq. rewrite map_map in H. clear - H Hq. induction r as [|z r IH]; [destruct Hq|]. simpl in *.
      inversion H. destruct Hq as [<-|Hq]; auto.
    - rewrite map_map. apply map_ext_in. exact H. }
  split.
  - rewrite <- (G []). unfold p. rewrite (pearson_value a b H1 H2).
    assert (O := rho_one (xs_of (pairs a b)) (ys_of (pairs a b)) (xy_length _) H1 H2).
    rewrite <- O. split; [congruence|]. intros E. rewrite E. reflexivity.
  - assert (V : varies (map (fun x => (-1) * x + 0) (xs_of (pairs a b)))) by (apply varies_map; [intros; lra|exact H1]).
    assert (Q := rho_affine (-1) 0 (xs_of (pairs a b)) (ys_of (pairs a b)) ltac:(lra) H1 H2).
    assert (O := rho_one _ (ys_of (pairs a b)) ltac:(rewrite map_length; apply xy_length) V H2). rewrite Q in O.
    destruct (Rlt_dec 0 (-1)) as [L|_]; [exfalso; lra|].
    rewrite (pearson_value a b H1 H2). set (r := rho (xs_of (pairs a b)) (ys_of (pairs a b))) in *. split.
    + intros E. assert (E' : r = -1) by exact (some_inj _ _ E). destruct (proj1 O ltac:(rewrite E'; ring)) as (k & c & Hk & M).
      exists (- k), c. split; [lra|]. unfold xs_of, ys_of in M. rewrite !map_map in M. intros q Hq.
      clear - M Hq. unfold p in *. induction (pairs a b) as [|z l IH]; [destruct Hq|]. simpl in *. inversion M.
      destruct Hq as [<-|Hq]; [lra|auto].
    + intros (k & c & Hk & M). f_equal. assert (E : -1 * r = 1); [|lra]. apply O. exists (- k), c. split; [lra|].
      unfold xs_of, ys_of. rewrite !map_map. apply map_ext_in. intros q Hq. rewrite (M q Hq). ring.
Qed.
Print Assumptions C46_extreme.

Theorem C46_std_ratio : forall a b x, std_ratio a b = Fin x -> x <> 0 ->
  0 < x /\ exists y, std_ratio b a = Fin y /\ x * y = 1.
Proof.
  unfold std_ratio, fdiv. intros a b x. destruct (std a) as [u|] eqn:Eu; [|discriminate]. destruct (std b) as [v|] eqn:Ev; [|discriminate].
  assert (P : forall s w, std s = Some w -> 0 <= w).
  { intros s w H. unfold std in H. cbv zeta in H. destruct (cov _ _); [|discriminate]. simpl in H. inversion H. apply sqrt_pos. }
  apply P in Eu. apply P in Ev.
  destruct (Req_EM_T v 0); [destruct (Req_EM_T u 0); discriminate|]. intros E Hx. inversion E as [E']. 
  assert (Hu : u <> 0). { intros ->. apply Hx. rewrite <- E'. unfold Rdiv. ring. }
  split; [apply Rdiv_lt_0_compat; lra|]. destruct (Req_EM_T u 0); [congruence|]. eexists. split; [reflexivity|].
  field. split; assumption.
Qed.
Print Assumptions C46_std_ratio.

Example C46_example : pearson (series_of [1; 2; 3]%Z [0; 1; 2]) (series_of [1; 2; 3]%Z [5; 3; 1]) = Some (-1).
Proof.
  assert (P := complete_pairs [1; 2; 3]%Z [0; 1; 2] [5; 3; 1] eq_refl eq_refl). simpl combine in P.
  apply C46_extreme; rewrite P.
  - exists 0, 1. simpl. split; [auto|]. split; [auto|lra].
  - exists 5, 3. simpl. split; [auto|]. split; [auto|lra].
  - exists (-2), 5. split; [lra|]. simpl. intros q [<-|[<-|[<-|[]]]]; simpl; lra.
Qed.

(** ** C47 keys *)
Theorem C47_keys_resolve : forall s, distinct_names s -> suffix_free s ->
  (forall src n, available s src n ->
     exists! k, In k (keys (all_keys s)) /\ resolve_key (all_keys s) k = Ok (src, n)) /\
  (forall k, In k (keys (all_keys s)) -> exists src n, available s src n /\ resolve_key (all_keys s) k = Ok (src, n)) /\
  (forall k, ~ In k (keys (all_keys s)) -> resolve_key (all_keys s) k = Err AssertionError).
Proof.
  intros s HD HS.
  assert (A : forall k, In k (keys (all_keys s)) -> exists src n, available s src n /\
     ((sources_of s n = [src] /\ k = n) \/ ((2 <= List.length (sources_of s n))%nat /\ k = (n ++ "__" ++ src)%string)) /\
     resolve_key (all_keys s) k = Ok (src, n)).
  { intros k Hk. apply in_map_iff in Hk. destruct Hk as ([k' src] & E & H). simpl in E. subst k'.
    assert (H' := H). apply all_keys_in in H'; [|assumption..]. destruct H' as (n & Ha & Hc).
    exists src, n. split; [exact Ha|]. split; [exact Hc|]. apply resolve_entry; assumption. }
  split; [|split].
  - intros src n Ha.
    assert (Hs := proj2 (sources_of_in s n src) Ha).
    set (k := match sources_of s n with [_] => n | _ => (n ++ "__" ++ src)%string end).
    assert (Hc : (sources_of s n = [src] /\ k = n) \/ ((2 <= List.length (sources_of s n))%nat /\ k = (n ++ "__" ++ src)%string)).
    { unfold k. destruct (sources_of s n) as [|i [|j l]]; [destruct Hs| |right; simpl; split; [lia|reflexivity]].
      left. destruct Hs as [->|[]]. auto. }
    assert (Hk : In (k, src) (all_keys s)). { apply all_keys_in; [assumption..|]. exists n. auto. }
    exists k. split; [split|].
    + apply in_map_iff. exists (k, src). auto.
    + apply resolve_entry; assumption.
    + intros k' [H1 H2]. destruct (A k' H1) as (src' & n' & Ha' & Hc' & Hr). rewrite H2 in Hr. inversion Hr. subst src' n'.
      destruct Hc as [[E1 E2]|[E1 E2]]; destruct Hc' as [[F1 F2]|[F1 F2]]; try congruence.
      * rewrite E1 in F1. simpl in F1. lia.
      * rewrite F1 in E1. simpl in E1. lia.
  - intros k Hk. destruct (A k Hk) as (src & n & H1 & _ & H3). eauto.
  - intros k Hk. unfold resolve_key. destruct (dget string_dec k (all_keys s)) eqn:E; [|reflexivity].
    exfalso. apply Hk. apply (dget_in_keys string_dec). congruence.
Qed.
Print Assumptions C47_keys_resolve.

(** a name that contains a source suffix breaks this: one variable is
    unreachable, or a key resolves to a variable that does not exist *)
Theorem C47_suffix_refuted :
  (exists s, distinct_names s /\ available s "dataset" "x" /\
     forall k, resolve_key (all_keys s) k <> Ok ("dataset", "x")%string) /\
  (exists s k n, distinct_names s /\ In k (keys (all_keys s)) /\
     resolve_key (all_keys s) k = Ok ("dataset"%string, n) /\ ~ available s "dataset" n).
Proof.
  split.
  - exists (mksources ["x"] false ["x"] ["x__dataset"])%string. split; [|split].
    + repeat split; repeat constructor; simpl; tauto.
    + constructor. left; reflexivity.
    + intros k H. unfold resolve_key in H.
      change (all_keys _) with
        [("x__dataset", "auxdat"); ("x__res_df", "res_df"); ("tot", "calc_model"); ("surf", "calc_model"); ("vol", "calc_model")]%string in H.
      cbn [dget] in H.
      repeat (destruct (string_dec k _) as [->|_]; [vm_compute in H; discriminate H|]). discriminate H.
  - exists (mksources ["y__dataset"] false [] [])%string, "y__dataset"%string, "y"%string. split; [|split; [|split]].
    + repeat split; repeat constructor; simpl; tauto.
    + vm_compute. auto.
    + reflexivity.
    + intros H. inversion H as [n' Hn| | | |]; subst. destruct Hn as [Hn|[]]. discriminate Hn.
Qed.
Print Assumptions C47_suffix_refuted.

Example C47_example :
  let s := mksources ["sig"; "inc"] true ["omega"; "sig"] ["sm"] in
  resolve_key (all_keys s) "sig__res_df" = Ok ("res_df", "sig")%string /\
  resolve_key (all_keys s) "sig" = Err AssertionError /\
  resolve_key (all_keys s) "inter" = Ok ("calc_model", "inter")%string /\
  distinct_names s /\ suffix_free s.
Proof.
  split; [reflexivity|]. split; [reflexivity|]. split; [reflexivity|]. split.
  - repeat split; repeat constructor; simpl; intuition discriminate.
  - intros src n H m t Ht E. assert (T : endswith ("__" ++ t) n = true) by (apply endswith_iff; eauto). clear E.
    inversion H; subst; clear H; cbn [In s_dataset s_res_df s_auxdat] in *;
    repeat match goal with
           | K : _ \/ _ |- _ => destruct K
           | K : False |- _ => destruct K
           end; subst; vm_compute in T; discriminate.
Qed.

(** ** C86 series brought to a common index *)
(** the result is two series of equal length, or an AssertionError exactly if
    the lengths and the numbers of present values both differ *)
Theorem C86_unify_partial : forall a b,
  (forall a' b', unify_idx_data a b = Ok (a', b') -> List.length a' = List.length b') /\
  (unify_idx_data a b = Err AssertionError <->
     List.length a <> List.length b /\ List.length (filter present a) <> List.length (filter present b)) /\
  (index a = index b -> unify_idx_data a b = Ok (a, b)).
Proof.
  intros a b. unfold unify_idx_data. split; [|split].
  - intros a' b'. destruct (Nat.eqb_spec (List.length a) (List.length b)); [intros H; inversion H; subst; assumption|].
    destruct (Nat.eqb_spec (List.length (filter present a)) (List.length (filter present b))); intros H; inversion H; subst; assumption.
  - destruct (Nat.eqb_spec (List.length a) (List.length b)); [split; [discriminate|tauto]|].
    destruct (Nat.eqb_spec (List.length (filter present a)) (List.length (filter present b))); [split; [discriminate|tauto]|tauto].
  - intros E. apply (f_equal (@List.length Z)) in E. unfold index in E. rewrite !map_length in E. rewrite E, Nat.eqb_refl. reflexivity.
Qed.
Print Assumptions C86_unify_partial.

(** the promised common index is not produced: series that share labels raise
    an error, and series of equal length keep disjoint labels *)
Theorem C86_common_index_refuted :
  (exists a b l x y, value_at a l x /\ value_at b l y /\ unify_idx_data a b = Err AssertionError) /\
  (exists a b a' b', unify_idx_data a b = Ok (a', b') /\ a' <> [] /\ forall l, In l (index a') -> ~ In l (index b')).
Proof.
  split.
  - exists [(1%Z, Some 1); (2%Z, Some 2)], [(1%Z, Some 5)], 1%Z, 1, 5. split; [left; reflexivity|]. split; [left; reflexivity|]. reflexivity.
  - exists [(1%Z, Some 1)], [(2%Z, Some 1)], [(1%Z, Some 1)], [(2%Z, Some 1)]. split; [reflexivity|]. split; [discriminate|].
    intros l [<-|[]] [H|[]]. discriminate.
Qed.
Print Assumptions C86_common_index_refuted.

Example C86_example : unify_idx_data [(1%Z, Some 1); (2%Z, None)] [(2%Z, Some 5)] = Ok ([(1%Z, Some 1)], [(2%Z, Some 5)]).
Proof. reflexivity. Qed.

(** ** C87 Spearman correlation *)
Theorem C87_monotone : forall f a b,
  ((forall u v, u < v -> f u < f v) -> spearman (apply f a) b = spearman a b) /\
  ((forall u v, u < v -> f v < f u) -> spearman (apply f a) b = option_map Ropp (spearman a b)).
Proof.
  intros f a b. split; intros H; rewrite !spearman_ranks, pairs_apply_l, ry_fst.
  - rewrite rx_increasing by exact H. reflexivity.
  - rewrite rx_decreasing by exact H.
    rewrite corrcoef_affine; [|lra|unfold rx, ry; rewrite !map_length; apply xy_length].
    destruct (Rlt_dec 0 (-1)); [lra|]. destruct (corrcoef _ _); simpl; [f_equal; ring|reflexivity].
Qed.
Print Assumptions C87_monotone.

(** defined exactly if neither series is constant, with values in [-1, 1];
    1 for increasing relations *)
Theorem C87_value : forall a b, let p := pairs a b in
  (varies (map fst p) /\ varies (map snd p) <-> exists r, spearman a b = Some r) /\
  (forall r, spearman a b = Some r -> -1 <= r <= 1) /\
  (forall f, varies (map fst p) -> (forall u v, u < v -> f u < f v) -> (forall q, In q p -> snd q = f (fst q)) ->
     spearman a b = Some 1).
Proof.
  intros a b p. rewrite spearman_ranks. fold p. assert (L : List.length (rx p) = List.length (ry p)).
  { unfold rx, ry. rewrite !map_length. apply xy_length. }
  assert (V : forall r, corrcoef (rx p) (ry p) = Some r -> varies (rx p) /\ varies (ry p)).
  { intros r H. destruct (varies_em (rx p)) as [V1|V1]; [destruct (varies_em (ry p)) as [V2|V2]; [auto|]|];
      rewrite corrcoef_const in H by auto; discriminate. }
  split; [|split].
  - split.
    + intros [H1 H2]. eexists. apply corrcoef_value; [exact L|apply (proj1 (ranks_vary _)); exact H1|apply (proj1 (ranks_vary _)); exact H2].
    + intros [r H]. apply V in H. destruct H as [H1 H2]. split; apply (proj2 (ranks_vary _)); assumption.
  - intros r H. destruct (V r H) as [H1 H2]. rewrite corrcoef_value in H by assumption. inversion H. apply rho_range; assumption.
  - intros f Hv Hf Hp. assert (E : ry p = rx p).
    { unfold ry, rx, ys_of, xs_of. replace (map snd p) with (map f (map fst p)).
      2:{ rewrite map_map. symmetry. apply map_ext_in. exact Hp. }
      rewrite (map_map f). apply map_ext. intros q. apply rank_increasing. exact Hf. }
    rewrite E. assert (R1 : varies (rx p)) by (apply (proj1 (ranks_vary _)); exact Hv).
    rewrite corrcoef_value by (try assumption; reflexivity). f_equal. apply rho_self. exact R1.
Qed.
Print Assumptions C87_value.

Example C87_example :
  spearman (series_of [1; 2; 3]%Z [0; 1; 2]) (series_of [1; 2; 3]%Z [0; 1; 8]) = Some 1.
Proof.
  assert (P := complete_pairs [1; 2; 3]%Z [0; 1; 2] [0; 1; 8] eq_refl eq_refl). simpl combine in P.
  assert (Q := C87_value (series_of [1; 2; 3]%Z [0; 1; 2]) (series_of [1; 2; 3]%Z [0; 1; 8])). cbv zeta in Q. rewrite P in Q.
  apply (proj2 (proj2 Q) (fun x => x * x * x)); clear Q.
  - exists 0, 1. simpl. split; [auto|]. split; [auto|lra].
  - intros u v H. assert (A := Rle_0_sqr (u + v)). assert (B := Rle_0_sqr u). assert (D := Rle_0_sqr v). unfold Rsqr in *.
    assert (Q : 0 < u * u + u * v + v * v).
    { destruct (Req_EM_T u 0) as [->|Hu]; [|assert (0 < u * u) by (apply Rsqr_pos_lt; exact Hu); nra].
      assert (0 < v * v) by (apply Rsqr_pos_lt; lra). lra. }
    replace (v * v * v) with (u * u * u + (v - u) * (u * u + u * v + v * v)) by ring.
    assert (0 < (v - u) * (u * u + u * v + v * v)) by (apply Rmult_lt_0_compat; lra). lra.
  - simpl. intros q [<-|[<-|[<-|[]]]]; simpl; lra.
Qed.

(** ** C88 regression *)
(** slope and intercept are the unique minimiser of the squared misfit; for
    series with equal labels the r-value is the Pearson correlation *)
Theorem C88_least_squares : forall i1 i2 xs ys,
  List.length i1 = List.length xs -> List.length i2 = List.length ys -> List.length xs = List.length ys -> varies xs ->
  exists s i r, linregress (series_of i1 xs) (series_of i2 ys) = Some (Fin s, Fin i, Fin r) /\
    (forall s' i', misfit s i xs ys <= misfit s' i' xs ys) /\
    (forall s' i', misfit s' i' xs ys = misfit s i xs ys -> s' = s /\ i' = i) /\
    (i1 = i2 -> varies ys -> pearson (series_of i1 xs) (series_of i2 ys) = Some r).
Proof.
  intros i1 i2 xs ys H1 H2 Hl V. assert (PX := varies_pos xs V). assert (L2 := varies_long xs V).
  assert (Nx : xs <> []) by (destruct xs; simpl in *; [lia|discriminate]).
  assert (F : forall idx zs, List.length idx = List.length zs ->
     List.length (series_of idx zs) = List.length zs /\ forallb present (series_of idx zs) = true).
  { intros idx zs H. unfold series_of. rewrite combine_length, map_length. split; [lia|].
    clear - H. revert zs H. induction idx as [|k idx IH]; intros [|z zs] H; simpl in *; try discriminate; [reflexivity|]. apply IH. lia. }
  destruct (F i1 xs H1) as [F1 F2]. destruct (F i2 ys H2) as [F3 F4].
  unfold linregress. rewrite !complete_values, !somes_map_Some, F1, F3, F2, F4 by assumption. cbv zeta.
  replace (Nat.eqb (List.length xs) (List.length ys)) with true by (symmetry; apply Nat.eqb_eq; exact Hl).
  replace (Nat.leb (List.length xs) 1) with false by (symmetry; apply Nat.leb_gt; lia). cbn [negb].
  destruct (Req_EM_T (dot (dev xs) (dev xs)) 0) as [Z|_]; [lra|].
  set (sxx := dot (dev xs) (dev xs)) in *. set (sxy := dot (dev xs) (dev ys)).
  set (syy := dot (dev ys) (dev ys)). do 3 eexists. split; [reflexivity|].
  assert (Ln := len_pos xs Nx).
  assert (M : forall s' i', misfit s' i' xs ys = misfit (sxy / sxx) (avg ys - sxy / sxx * avg xs) xs ys
      + (sxx * (s' - sxy / sxx) ^ 2 + INR (List.length xs) * (avg ys - s' * avg xs - i') ^ 2)).
  { intros s' i'. rewrite !misfit_expand by assumption. fold sxx sxy syy. field. lra. }
  split; [|split].
  - intros s' i'. rewrite (M s' i').
    assert (A := Rmult_le_pos _ _ (Rlt_le _ _ PX) (pow2_ge_0 (s' - sxy / sxx))).
    assert (B := Rmult_le_pos _ _ (Rlt_le _ _ Ln) (pow2_ge_0 (avg ys - s' * avg xs - i'))). lra.
  - intros s' i' E. rewrite (M s' i') in E.
    assert (A := Rmult_le_pos _ _ (Rlt_le _ _ PX) (pow2_ge_0 (s' - sxy / sxx))).
    assert (B := Rmult_le_pos _ _ (Rlt_le _ _ Ln) (pow2_ge_0 (avg ys - s' * avg xs - i'))).
    assert (A0 : sxx * (s' - sxy / sxx) ^ 2 = 0) by lra. assert (B0 : INR (List.length xs) * (avg ys - s' * avg xs - i') ^ 2 = 0) by lra.
    apply Rmult_integral in A0. destruct A0 as [A0|A0]; [lra|]. apply Rmult_integral in B0. destruct B0 as [B0|B0]; [lra|].
    assert (Z : forall u, u ^ 2 = 0 -> u = 0) by (intros u Hu; simpl in Hu; apply Rmult_integral in Hu; destruct Hu; [assumption|lra]).
    apply Z in A0. apply Z in B0. assert (s' = sxy / sxx) by lra. subst s'. split; [reflexivity|lra].
  - intros <- Vy. assert (PY := varies_pos ys Vy). fold syy in PY.
    assert (P := complete_pairs i1 xs ys H1 ltac:(congruence)).
    assert (X : xs_of (pairs (series_of i1 xs) (series_of i1 ys)) = xs) by (rewrite P; apply combine_fst; lia).
    assert (Y : ys_of (pairs (series_of i1 xs) (series_of i1 ys)) = ys) by (rewrite P; apply combine_snd; lia).
    rewrite pearson_value by (rewrite ?X, ?Y; assumption). rewrite X, Y. f_equal.
    destruct (Req_EM_T syy 0) as [Z|_]; [lra|]. assert (RR := rho_range xs ys V Vy). unfold rho in *. fold sxx sxy syy. fold sxx sxy syy in RR.
    rewrite sqrt_mult by lra. rewrite clip1_id by exact RR. reflexivity.
Qed.
Print Assumptions C88_least_squares.

(** the regression goes by position, the correlation by label: for the same
    data in another order they disagree *)
Theorem C88_order_refuted : exists a b s i,
  Permutation (index a) (index b) /\ linregress a b = Some (Fin s, Fin i, Fin 1) /\ pearson a b = Some (-1).
Proof.
  set (a := series_of [1; 2; 3]%Z [1; 2; 3]). set (b := series_of [3; 2; 1]%Z [1; 2; 3]).
  assert (V : varies [1; 2; 3]) by (exists 1, 2; simpl; split; [auto|split; [auto|lra]]).
  destruct (C88_least_squares [1; 2; 3]%Z [3; 2; 1]%Z [1; 2; 3] [1; 2; 3] eq_refl eq_refl eq_refl V) as (s & i & r & E & _).
  exists a, b, s, i. split; [|split].
  - unfold a, b. simpl. change [3; 2; 1]%Z with (rev [1; 2; 3]%Z). apply Permutation_rev.
  - fold a b in E. destruct (C88_least_squares [1; 2; 3]%Z [1; 2; 3]%Z [1; 2; 3] [1; 2; 3] eq_refl eq_refl eq_refl V)
      as (s' & i' & r' & E' & _ & _ & Pr). specialize (Pr eq_refl V).
    assert (LE : linregress a b = linregress a a) by reflexivity.
    change (series_of [1; 2; 3]%Z [1; 2; 3]) with a in E', Pr. rewrite LE, E' in E. rewrite LE, E'.
    assert (R1 : pearson a a = Some 1).
    { assert (P := complete_pairs [1; 2; 3]%Z [1; 2; 3] [1; 2; 3] eq_refl eq_refl). simpl combine in P.
      apply C46_extreme; fold a in P; rewrite P; try exact V. exists 1, 0. split; [lra|].
      simpl. intros q [<-|[<-|[<-|[]]]]; simpl; lra. }
    rewrite R1 in Pr. rewrite E. inversion E. apply some_inj in Pr. subst. reflexivity.
  - assert (P : pairs a b = [(1, 3); (2, 2); (3, 1)]).
    { unfold pairs, align_outer. replace (same_index a b) with false; [reflexivity|]. unfold same_index.
      destruct (list_eq_dec _ _ _) as [Q|]; [discriminate Q|reflexivity]. }
    apply C46_extreme; rewrite P; try exact V.
    + exists 3, 2. simpl. split; [auto|]. split; [auto|lra].
    + exists (-1), 4. split; [lra|]. simpl. intros q [<-|[<-|[<-|[]]]]; simpl; lra.
Qed.
Print Assumptions C88_order_refuted.

Example C88_example : exists r, linregress (series_of [1; 2]%Z [0; 2]) (series_of [5; 6]%Z [1; 5]) = Some (Fin 2, Fin 1, Fin r).
Proof.
  assert (V : varies [0; 2]) by (exists 0, 2; simpl; split; [auto|split; [auto|lra]]).
  destruct (C88_least_squares [1; 2]%Z [5; 6]%Z [0; 2] [1; 5] eq_refl eq_refl eq_refl V) as (s & i & r & E & Mi & U & _).
  assert (Z : misfit 2 1 [0; 2] [1; 5] = 0) by (unfold misfit; simpl; ring).
  assert (N : 0 <= misfit s i [0; 2] [1; 5]).
  { unfold misfit. unfold Rsum. cbn [combine map fold_right]. assert (A := pow2_ge_0 (snd (0, 1) - s * fst (0, 1) - i)).
    assert (B := pow2_ge_0 (snd (2, 5) - s * fst (2, 5) - i)). lra. }
  assert (M := Mi 2 1). destruct (U 2 1 ltac:(lra)) as [<- <-]. exists r. exact E.
Qed.

(** ** C89 mean relative error *)
(** zero reference values: skipped if both values are zero, otherwise the
    result is infinite; without them it is the mean of |x - y| / |x| *)
Theorem C89_value : forall a b, let p := pairs a b in
  (mape a b = NaN <-> forall q, In q p -> fst q = 0 /\ snd q = 0) /\
  (mape a b = Inf true <-> exists q, In q p /\ fst q = 0 /\ snd q <> 0) /\
  (p <> [] -> (forall q, In q p -> fst q <> 0) -> mape a b = Fin (avg (map (fun q => Rabs (fst q - snd q) / Rabs (fst q)) p))).
Proof.
  intros a b p. rewrite mape_pairs. fold p. unfold fmean. fold usable.
  assert (T : forall q : R * R, (fst q = 0 /\ snd q = 0 /\ rel q = NaN) \/ (fst q = 0 /\ snd q <> 0 /\ rel q = Inf true)
                 \/ (fst q <> 0 /\ rel q = Fin (Rabs ((fst q - snd q) / fst q)))).
  { intros q. destruct (Req_EM_T (fst q) 0); [destruct (Req_EM_T (snd q) 0)|].
    - left. auto using rel_zero.
    - right; left. auto using rel_inf.
    - right; right. auto using rel_fin. }
  set (isinf := fun x => match x with Inf _ => true | _ => false end).
  assert (N : filter usable (map rel p) = [] <-> forall q, In q p -> fst q = 0 /\ snd q = 0).
  { clearbody p. induction p as [|q r IH]; simpl; [tauto|].
    destruct (T q) as [(A & B & C)|[(A & B & C)|(A & C)]]; rewrite C; simpl.
    - rewrite IH. split; [intros H x [<-|Hx]; auto|intros H x Hx; auto].
    - split; [discriminate|]. intros H. destruct (H q (or_introl eq_refl)). congruence.
    - split; [discriminate|]. intros H. destruct (H q (or_introl eq_refl)). congruence. }
  assert (I : existsb isinf (filter usable (map rel p)) = true <-> exists q, In q p /\ fst q = 0 /\ snd q <> 0).
  { clearbody p. clear N. induction p as [|q r IH]; simpl; [split; [discriminate|intros (q & [] & _)]|].
    destruct (T q) as [(A & B & C)|[(A & B & C)|(A & C)]]; rewrite C; simpl.
    - rewrite IH. split; intros (x & H1 & H2); exists x; [auto|]. destruct H1 as [<-|H1]; [tauto|auto].
    - split; [|reflexivity]. intros _. exists q. auto.
    - rewrite IH. split; intros (x & H1 & H2); exists x; [auto|]. destruct H1 as [<-|H1]; [tauto|auto]. }
  split; [|split].
  - rewrite <- N. destruct (filter usable (map rel p)); [tauto|].
    split; [|discriminate]. destruct (existsb _ _); discriminate.
  - rewrite <- I. destruct (filter usable (map rel p)) as [|x l]; [simpl; split; discriminate|].
    fold isinf. destruct (existsb isinf (x :: l)); split; congruence.
  - intros Hp Hz. assert (E : filter usable (map rel p) = map (fun q => Fin (Rabs (fst q - snd q) / Rabs (fst q))) p).
    { clearbody p. clear N I Hp. induction p as [|q r IH]; simpl; [reflexivity|].
      rewrite (rel_fin q) by (apply Hz; left; reflexivity). simpl. unfold Rdiv. rewrite Rabs_mult, Rabs_inv.
      f_equal. apply IH. intros x Hx. apply Hz. right; exact Hx. }
    rewrite E. assert (F : existsb isinf (map (fun q => Fin (Rabs (fst q - snd q) / Rabs (fst q))) p) = false).
    { clear. induction p; simpl; auto. }
    destruct (map (fun q => Fin _) p) as [|x l] eqn:El; [destruct p; [congruence|discriminate]|].
    fold isinf. rewrite F, <- El, map_map. reflexivity.
Qed.
Print Assumptions C89_value.

Theorem C89_scale : forall c a b, c <> 0 -> mape (scale c a) (scale c b) = mape a b.
Proof.
  intros c a b Hc. rewrite !mape_pairs. change (scale c ?s) with (apply (fun x => c * x) s). rewrite pairs_apply, map_map.
  f_equal. apply map_ext. intros q. cbn [fst snd].
  destruct (Req_EM_T (fst q) 0) as [E|E]; [destruct (Req_EM_T (snd q) 0) as [F|F]|].
  - rewrite !rel_zero; simpl; try assumption; [reflexivity| |]; rewrite ?E, ?F; ring.
  - rewrite !rel_inf; simpl; try assumption; [reflexivity|rewrite E; ring|]. apply Rmult_integral_contrapositive_currified; assumption.
  - rewrite !rel_fin; simpl; try assumption; [|apply Rmult_integral_contrapositive_currified; assumption].
    do 2 f_equal. field. split; assumption.
Qed.
Print Assumptions C89_scale.

Example C89_example : mape (series_of [1; 2]%Z [2; 0]) (series_of [1; 2]%Z [1; 0]) = Fin (1 / 2) /\
  mape (series_of [1; 2]%Z [2; 0]) (series_of [1; 2]%Z [1; 3]) = Inf true.
Proof.
  assert (P := complete_pairs [1; 2]%Z [2; 0] [1; 0] eq_refl eq_refl). assert (P2 := complete_pairs [1; 2]%Z [2; 0] [1; 3] eq_refl eq_refl).
  simpl combine in P, P2. split.
  - rewrite mape_pairs, P. unfold fmean. cbn [map]. rewrite rel_fin by (cbn [fst]; apply Rgt_not_eq; lra). rewrite rel_zero by reflexivity. cbn [filter existsb map]. f_equal.
    unfold avg. simpl. replace ((2 - 1) / 2) with (1 / 2) by field. rewrite Rabs_pos_eq by lra. f_equal. field.
  - apply C89_value. rewrite P2. exists (0, 3). simpl. split; [auto|]. split; [reflexivity|apply Rgt_not_eq; lra].
Qed.
