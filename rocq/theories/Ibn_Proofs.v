(** Lemmas about slices, bins and images. *)
From Coq Require Import ZArith QArith Qabs Bool Arith List Lia Lqa.
From Verif Require Import Base Base_Proofs GF_Model GF_Proofs Aln_Model Ibn_Model Ibn_Spec.
Import ListNotations.
Local Open Scope list_scope.

Lemma bound_start n step b : (0 <= n)%Z -> step <> 0%Z -> bound n (step <? 0)%Z (if (step <? 0)%Z then n - 1 else 0)%Z b = start_of n step b.
Proof.
  intros Hn H. unfold bound, start_of, clamp, from_end.
  destruct (Z.ltb_spec step 0), (Z.ltb_spec 0 step); try lia; destruct b as [v|]; try lia; auto;
  destruct (Z.ltb_spec v 0); try (destruct (Z.ltb_spec (v + n) 0)); try (destruct (Z.leb_spec n v)); lia.
Qed.
Lemma bound_stop n step b : (0 <= n)%Z -> step <> 0%Z -> bound n (step <? 0)%Z (if (step <? 0)%Z then -1 else n)%Z b = stop_of n step b.
Proof.
  intros Hn H. unfold bound, stop_of, clamp, from_end.
  destruct (Z.ltb_spec step 0), (Z.ltb_spec 0 step); try lia; destruct b as [v|]; try lia; auto;
  destruct (Z.ltb_spec v 0); try (destruct (Z.ltb_spec (v + n) 0)); try (destruct (Z.leb_spec n v)); lia.
Qed.
Lemma start_range n step b : (0 <= n)%Z -> step <> 0%Z ->
  ((0 < step)%Z -> (0 <= start_of n step b)%Z) /\ ((step < 0)%Z -> (start_of n step b <= n - 1)%Z).
Proof.
  intros Hn H. unfold start_of, clamp. destruct b as [v|]; destruct (Z.ltb_spec 0 step); split; intros; lia.
Qed.
Lemma stop_range n step b : (0 <= n)%Z -> step <> 0%Z ->
  ((0 < step)%Z -> (stop_of n step b <= n)%Z) /\ ((step < 0)%Z -> (-1 <= stop_of n step b)%Z).
Proof.
  intros Hn H. unfold stop_of, clamp. destruct b as [v|]; destruct (Z.ltb_spec 0 step); split; intros; lia.
Qed.

(** the positions of a slice *)
Definition count_of (n : Z) (s : pslice) : nat :=
  let a := start_of n (step_of s) (s_start s) in let b := stop_of n (step_of s) (s_stop s) in let step := step_of s in
  Z.to_nat (if (0 <? step)%Z then if (a <? b)%Z then (b - a - 1) / step + 1 else 0 else if (b <? a)%Z then (a - b - 1) / (- step) + 1 else 0)%Z.
Lemma positions_ok len s : step_of s <> 0%Z ->
  slice_positions len s = Ok (map (fun k => Z.to_nat (start_of (Z.of_nat len) (step_of s) (s_start s) + Z.of_nat k * step_of s)) (seq 0 (count_of (Z.of_nat len) s))).
Proof.
  intros H. unfold slice_positions. fold (step_of s). destruct (Z.eqb_spec (step_of s) 0); [lia|].
  cbv zeta. rewrite bound_start, bound_stop by lia. unfold count_of. cbv zeta.
  destruct (Z.ltb_spec (step_of s) 0), (Z.ltb_spec 0 (step_of s)); try lia; reflexivity.
Qed.
Lemma positions_err len s : step_of s = 0%Z -> slice_positions len s = Err ValueError.
Proof. intros H. unfold slice_positions. fold (step_of s). rewrite H. reflexivity. Qed.
Lemma count_kth n s k : (0 <= n)%Z -> step_of s <> 0%Z ->
  ((k < count_of n s)%nat <-> exists p, kth n s k p).
Proof.
  intros Hn H. unfold count_of, kth. cbv zeta.
  set (a := start_of _ _ _). set (b := stop_of _ _ _). set (st := step_of s) in *.
  destruct (Z.ltb_spec 0 st).
  - destruct (Z.ltb_spec a b).
    + pose proof (Z.div_mod (b - a - 1) st ltac:(lia)). pose proof (Z.mod_pos_bound (b - a - 1) st ltac:(lia)).
      set (q := ((b - a - 1) / st)%Z) in *. assert (0 <= q)%Z by nia. split.
      * intros K. exists (a + Z.of_nat k * st)%Z. split; [reflexivity|]. nia.
      * intros (p & -> & L). assert (Z.of_nat k <= q)%Z by nia. lia.
    + split; [lia|]. intros (p & -> & L). nia.
  - destruct (Z.ltb_spec b a).
    + pose proof (Z.div_mod (a - b - 1) (- st) ltac:(lia)). pose proof (Z.mod_pos_bound (a - b - 1) (- st) ltac:(lia)).
      set (q := ((a - b - 1) / (- st))%Z) in *. assert (0 <= q)%Z by nia. split.
      * intros K. exists (a + Z.of_nat k * st)%Z. split; [reflexivity|]. nia.
      * intros (p & -> & L). assert (Z.of_nat k <= q)%Z by nia. lia.
    + split; [lia|]. intros (p & -> & L). nia.
Qed.
Lemma kth_range n s k p : (0 <= n)%Z -> step_of s <> 0%Z -> kth n s k p -> (0 <= p < n)%Z.
Proof.
  intros Hn H [-> L]. pose proof (start_range n (step_of s) (s_start s) Hn H) as [A1 A2]. pose proof (stop_range n (step_of s) (s_stop s) Hn H) as [B1 B2].
  destruct (Z.ltb_spec 0 (step_of s)).
  - specialize (A1 H0). specialize (B1 H0). nia.
  - specialize (A2 ltac:(lia)). specialize (B2 ltac:(lia)). nia.
Qed.
Lemma position_lt len s k : step_of s <> 0%Z -> (k < count_of (Z.of_nat len) s)%nat ->
  exists p, kth (Z.of_nat len) s k p /\ Z.to_nat (start_of (Z.of_nat len) (step_of s) (s_start s) + Z.of_nat k * step_of s) = Z.to_nat p /\ (Z.to_nat p < len)%nat.
Proof.
  intros H K. apply count_kth in K as [p P]; [|lia|exact H]. exists p. split; [exact P|]. pose proof (kth_range _ _ _ _ (Zle_0_nat len) H P) as R. destruct P as [E _]. rewrite <- E. split; [reflexivity|]. clear E. lia.
Qed.
Lemma take_slice_ok {A} (d : A) l s : step_of s <> 0%Z ->
  take_slice l s = Ok (map (fun k => nth (Z.to_nat (start_of (Z.of_nat (length l)) (step_of s) (s_start s) + Z.of_nat k * step_of s)) l d) (seq 0 (count_of (Z.of_nat (length l)) s))).
Proof.
  intros H. unfold take_slice. rewrite positions_ok by exact H. cbn [bind].
  assert (G : forall ks, (forall k, In k ks -> (k < count_of (Z.of_nat (length l)) s)%nat) ->
    mapM (fun i => match nth_error l i with Some a => Ok a | None => Err IndexError end)
      (map (fun k => Z.to_nat (start_of (Z.of_nat (length l)) (step_of s) (s_start s) + Z.of_nat k * step_of s)) ks)
    = Ok (map (fun k => nth (Z.to_nat (start_of (Z.of_nat (length l)) (step_of s) (s_start s) + Z.of_nat k * step_of s)) l d) ks)).
  { induction ks as [|k ks IH]; intros K; [reflexivity|]. cbn [map mapM].
    destruct (position_lt (length l) s k H (K k (or_introl eq_refl))) as (p & P & E & L). rewrite E.
    rewrite (nth_error_nth' l d L). cbn [bind]. rewrite IH by (intros; apply K; now right). reflexivity. }
  apply G. intros k I. apply in_seq in I. lia.
Qed.
Lemma take_slice_err {A} (l : list A) s : step_of s = 0%Z -> take_slice l s = Err ValueError.
Proof. intros H. unfold take_slice. now rewrite positions_err. Qed.

(** ** columns *)
Lemma members_filter keys errs i :
  map snd (filter (fun p : option nat * Q => match fst p with Some k => Nat.eqb k i | None => false end) (combine keys errs)) = members keys errs i.
Proof.
  revert errs. induction keys as [|[k|] ks IH]; intros [|e es]; cbn; auto. destruct (Nat.eqb k i); cbn; rewrite IH; reflexivity.
Qed.
Lemma sum_fold l a : fold_left Qplus l a == a + sum l.
Proof. revert a. induction l as [|x l IH]; intros a; cbn; [ring|]. rewrite IH. ring. Qed.
Lemma column_values_shows keys n errs : shows keys n errs (column_values keys n errs).
Proof.
  unfold shows, column_values. split; [now rewrite map_length, seq_length|]. intros i Hi.
  rewrite nth_indep with (d' := match members keys errs 0 with [] => None | l => Some (shown_residual l) end) by (rewrite map_length, seq_length; auto).
  rewrite <- (members_filter keys errs 0).
  rewrite (map_nth (fun i => match map snd (filter (fun p : option nat * Q => match fst p with Some k => Nat.eqb k i | None => false end) (combine keys errs)) with [] => None | l => Some (shown_residual l) end)).
  rewrite seq_nth by auto. cbn [Nat.add]. rewrite members_filter. destruct (members keys errs i) as [|x l]; [reflexivity|].
  split; [discriminate|]. unfold shown_residual, abs_mean, qn. apply Qabs_wd. rewrite sum_fold. field.
  intro Z. assert (Y : (Z.of_nat (length (x :: l)) = 0)%Z) by (apply inject_Z_injective; exact Z). cbn [length] in Y. lia.
Qed.

(** ** bins *)
Lemma increasing_lt l : increasing l -> forall i j, (i < j < length l)%nat -> nth i l 0 < nth j l 0.
Proof.
  intros H i j [L1 L2]. induction j as [|j IH]; [lia|]. destruct (Nat.eq_dec i j) as [->|N]; [apply H; lia|].
  apply Qlt_trans with (nth j l 0); [apply IH; lia|apply H; lia].
Qed.
Lemma increasing_tl a l : increasing (a :: l) -> increasing l.
Proof. intros H i Hi. apply (H (S i)). cbn. lia. Qed.
(** the number of edges below a value *)
Lemma below_count l v : increasing l -> forall i, (i < length l)%nat ->
  (nth i l 0 < v <-> (i < length (filter (fun e => negb (Qle_bool v e)) l))%nat).
Proof.
  induction l as [|a l IH]; intros H i Hi; [cbn in Hi; lia|]. cbn [filter].
  destruct (Qle_bool v a) eqn:E; cbn [negb].
  - apply Qle_bool_iff in E. assert (Z : filter (fun e => negb (Qle_bool v e)) l = []).
    { assert (G : forall x, In x l -> negb (Qle_bool v x) = false).
      { intros x Hx. apply negb_false_iff, Qle_bool_iff. apply In_nth with (d := 0) in Hx as (k & Hk & <-).
        apply Qle_trans with a; [exact E|]. apply Qlt_le_weak. apply (increasing_lt _ H 0%nat (S k)). cbn. lia. }
      clear - G. induction l as [|b l IH]; [reflexivity|]. cbn. rewrite (G b) by now left. apply IH. intros; apply G; now right. }
    rewrite Z. cbn [length]. split; [|lia]. intros L. exfalso.
    destruct i as [|i]; [cbn in L; lra|]. pose proof (increasing_lt _ H 0%nat (S i) ltac:(cbn in *; lia)) as Q. change (nth 0 (a :: l) 0) with a in Q. lra.
  - assert (a < v). { apply Qnot_le_lt. intros Q. apply Qle_bool_iff in Q. congruence. }
    destruct i as [|i]; [cbn; split; [lia|auto]|]. cbn [length nth]. rewrite IH; [lia|eapply increasing_tl, H|cbn in Hi; lia].
Qed.
Lemma cut_binned edges v : increasing edges -> (1 < length edges)%nat -> binned edges v (cut edges v).
Proof.
  intros H L. destruct v as [v|]; [|intros x i; discriminate].
  unfold cut. destruct edges as [|e0 r]; [cbn in L; lia|]. set (l := e0 :: r) in *.
  set (c := length (filter (fun e => negb (Qle_bool v e)) l)).
  assert (Cb : forall i, (i < length l)%nat -> (nth i l 0 < v <-> (i < c)%nat)) by (intros; now apply below_count).
  assert (Cl : (c <= length l)%nat). { unfold c. clear. induction l as [|a l IH]; cbn; [lia|]. destruct (negb (Qle_bool v a)); cbn; lia. }
  destruct (Qeq_bool v e0) eqn:E.
  - apply Qeq_bool_iff in E. destruct (Nat.eqb_spec 1 (length l)); [lia|]. cbn.
    exists v. split; [reflexivity|]. split; [auto|]. right. auto.
  - assert (Ne : ~ v == e0) by (intros Q; apply Qeq_bool_iff in Q; congruence).
    destruct (Nat.eqb_spec c 0) as [C0|C0]; [|destruct (Nat.eqb_spec c (length l)) as [C1|C1]]; cbn [orb].
    + intros x i Q. injection Q as <-. intros [Li [[A B]|[-> B]]]; [|contradiction]. apply Cb in A; lia.
    + intros x i Q. injection Q as <-. intros [Li [[A B]|[-> B]]]; [|contradiction].
      assert (S i < c)%nat by lia. apply Cb in H0; [lra|lia].
    + exists v. split; [reflexivity|]. split; [lia|]. left. split; [apply Cb; lia|]. apply Qnot_lt_le. intros Q. apply Cb in Q; lia.
Qed.
Lemma bin_unique edges i j v : increasing edges -> in_bin edges i v -> in_bin edges j v -> i = j.
Proof.
  intros H. assert (W : forall i j, in_bin edges i v -> in_bin edges j v -> (i < j)%nat -> False).
  { clear i j. intros i j [Li A] [Lj B] Lt. assert (nth (S i) edges 0 <= nth j edges 0).
    { destruct (Nat.eq_dec (S i) j) as [->|]; [apply Qle_refl|]. apply Qlt_le_weak, increasing_lt; [auto|lia]. }
    assert (nth 0 edges 0 < nth (S i) edges 0) by (apply increasing_lt; [auto|lia]).
    destruct A as [[A1 A2]|[-> A]], B as [[B1 B2]|[-> B]]; try lia; lra. }
  intros A B. destruct (lt_eq_lt_dec i j) as [[Q|Q]|Q]; [exfalso; eauto|auto|exfalso; eauto].
Qed.

(** ** extrema *)
Lemma list_min_spec l : l <> [] -> In (list_min l) l /\ forall x, In x l -> (list_min l <= x)%nat.
Proof.
  destruct l as [|a l]; [congruence|]. intros _. cbn [list_min]. revert a. induction l as [|b l IH]; intros a; cbn [fold_left].
  - split; [now left|]. intros x [<-|[]]. lia.
  - destruct (IH (Nat.min a b)) as [I M]. split.
    + destruct I as [I|I]; [|right; now right]. rewrite <- I. destruct (Nat.min_dec a b) as [->| ->]; [now left|right; now left].
    + intros x [<-|[<-|Hx]]; [| |apply M; now right]; pose proof (M _ (or_introl eq_refl)); lia.
Qed.
Lemma list_max_spec l : l <> [] -> In (list_max l) l /\ forall x, In x l -> (x <= list_max l)%nat.
Proof.
  destruct l as [|a l]; [congruence|]. intros _. cbn [list_max]. revert a. induction l as [|b l IH]; intros a; cbn [fold_left].
  - split; [now left|]. intros x [<-|[]]. lia.
  - destruct (IH (Nat.max a b)) as [I M]. split.
    + destruct I as [I|I]; [|right; now right]. rewrite <- I. destruct (Nat.max_dec a b) as [->| ->]; [now left|right; now left].
    + intros x [<-|[<-|Hx]]; [| |apply M; now right]; pose proof (M _ (or_introl eq_refl)); lia.
Qed.

(** ** the isolated columns *)
Lemma maskp_nth m i : (i < length m)%nat ->
  nth i (maskp m) false = negb (nth i m true) && match i with 0%nat => true | S j => nth j m true end && nth (S i) m true.
Proof.
  intros Hi. unfold maskp. rewrite pairwise_windows by lia. unfold windows. rewrite map_map.
  assert (Ln : (length (true :: m ++ [true]) + 1 - 3 = length m)%nat) by (cbn; rewrite app_length; cbn; lia). rewrite Ln.
  set (F := fun x => match firstn 3 (skipn x (true :: m ++ [true])) with [true; false; true] => true | _ => false end).
  rewrite nth_indep with (d' := F 0%nat) by (now rewrite map_length, seq_length). rewrite map_nth, seq_nth by auto. cbn [Nat.add]. subst F. cbv beta.
  assert (G : forall (l : list bool) k, (S (S k) < length l)%nat -> firstn 3 (skipn k l) = [nth k l true; nth (S k) l true; nth (S (S k)) l true]).
  { clear. induction l as [|a l IH]; intros k H; [cbn in H; lia|]. destruct k as [|k].
    - destruct l as [|b [|c l]]; cbn in *; try lia. reflexivity.
    - cbn [skipn nth]. apply IH. cbn in H. lia. }
  rewrite G by (cbn; rewrite app_length; cbn; lia). cbn [nth].
  assert (P : forall k, nth k (m ++ [true]) true = nth k m true).
  { intros k. destruct (Nat.lt_ge_cases k (length m)); [now rewrite app_nth1|]. rewrite app_nth2 by auto. rewrite (nth_overflow m) by auto.
    destruct (k - length m)%nat as [|[|]]; reflexivity. }
  change (match i with 0%nat => true | S m0 => nth m0 (m ++ [true]) true end) with (nth i (true :: m ++ [true]) true).
  assert (P' : nth i (true :: m ++ [true]) true = match i with 0%nat => true | S j => nth j m true end) by (destruct i; [reflexivity|cbn [nth]; apply P]).
  rewrite P'. rewrite !P.
  destruct (match i with 0%nat => true | S j => nth j m true end), (nth i m true), (nth (S i) m true); reflexivity.
Qed.
Lemma in_selected m i : In i (selected m) <-> (i < length m)%nat /\ nth i m false = true.
Proof.
  unfold selected. rewrite in_map_iff. split.
  - intros ([j b] & E & H). cbn in E. subst j. apply filter_In in H as [H E]. cbn in E. subst b.
    assert (Q : forall s l, In (i, true) (combine (seq s (length l)) l) -> (s <= i < s + length l)%nat /\ nth (i - s) l false = true).
    { clear. intros s l. revert s. induction l as [|a l IH]; intros s H; [destruct H|]. cbn in H. destruct H as [H|H].
      - injection H as -> ->. rewrite Nat.sub_diag. cbn. split; [lia|reflexivity].
      - apply IH in H as [L H]. split; [cbn; lia|]. destruct (i - s)%nat eqn:E; [lia|]. cbn. replace n with (i - S s)%nat by lia. exact H. }
    apply Q in H. rewrite Nat.sub_0_r in H. lia || (destruct H; split; [lia|auto]).
  - intros [L H]. exists (i, true). split; [reflexivity|]. apply filter_In. split; [|reflexivity].
    replace (i, true) with (nth i (combine (seq 0 (length m)) m) (0%nat, false)).
    + apply nth_In. rewrite combine_length, seq_length. lia.
    + rewrite combine_nth by now rewrite seq_length. rewrite seq_nth by auto. cbn. now rewrite H.
Qed.
Lemma all_masked_nth n z i : (i < n)%nat -> (nth i (all_masked n z) true = false <-> exists row q, In row z /\ nth i row None = Some q).
Proof.
  intros Hi. unfold all_masked. set (F := fun i => forallb _ z).
  rewrite nth_indep with (d' := F 0%nat) by now rewrite map_length, seq_length. rewrite map_nth, seq_nth by auto. cbn [Nat.add]. unfold F. clear F.
  rewrite <- not_true_iff_false, forallb_forall. split.
  - intros H. induction z as [|row z IH]; [exfalso; apply H; intros x []|].
    destruct (nth i row None) as [q|] eqn:E; [exists row, q; split; [now left|auto]|].
    destruct IH as (r & q & I & Q); [|exists r, q; split; [now right|auto]]. intros G. apply H. intros x [<-|Hx]; [now rewrite E|now apply G].
  - intros (row & q & I & E) G. specialize (G _ I). now rewrite E in G.
Qed.
Lemma points_lone n z i : In i (selected (maskp (all_masked n z))) <-> lone z n i.
Proof.
  assert (L : length (all_masked n z) = n) by (unfold all_masked; now rewrite map_length, seq_length).
  assert (Lm : length (maskp (all_masked n z)) = n).
  { unfold maskp. rewrite map_length, pairwise_windows by lia. unfold windows. rewrite map_length, seq_length. cbn. rewrite app_length, L. cbn. lia. }
  rewrite in_selected, Lm. unfold lone. cbv zeta. split.
  - intros [Hi M]. rewrite maskp_nth in M by lia. apply andb_true_iff in M as [M M3]. apply andb_true_iff in M as [M1 M2]. apply negb_true_iff in M1.
    split; [auto|]. split; [now apply all_masked_nth in M1|]. split.
    + intros P Q. destruct i as [|j]; [lia|]. replace (S j - 1)%nat with j in Q by lia. apply (proj2 (all_masked_nth n z j ltac:(lia))) in Q. congruence.
    + intros P Q. apply (proj2 (all_masked_nth n z (S i) P)) in Q. congruence.
  - intros (Hi & A & B & C). split; [auto|]. rewrite maskp_nth by lia. apply andb_true_iff. split; [apply andb_true_iff; split|].
    + apply negb_true_iff. now apply all_masked_nth.
    + destruct i as [|j]; [reflexivity|]. apply not_false_iff_true. intros Q. apply all_masked_nth in Q; [|lia]. apply (B ltac:(lia)).
      now replace (S j - 1)%nat with j by lia.
    + destruct (Nat.lt_ge_cases (S i) n) as [P|P]; [|rewrite nth_overflow by lia; reflexivity].
      apply not_false_iff_true. intros Q. apply all_masked_nth in Q; [|lia]. exact (C P Q).
Qed.
