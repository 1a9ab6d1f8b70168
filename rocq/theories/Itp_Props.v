(** C180: interpolation of a dataset to other dates. *)
From Coq Require Import List QArith Bool String Lia Lqa Permutation Sorting.Sorted.
From Verif Require Import Base Itp_Model Itp_Spec.
Import ListNotations.
Local Open Scope Q_scope.
Local Open Scope list_scope.

Definition ltx (a b : Q * Q) : Prop := fst a < fst b.

Lemma insert_perm {A} (n : Q * A) l : Permutation (insert n l) (n :: l).
Proof. induction l as [|m r IH]; cbn; [apply Permutation_refl|]. destruct (Qle_bool _ _); [apply Permutation_refl|]. rewrite IH. apply perm_swap. Qed.
Lemma sort_perm {A} (l : list (Q * A)) : Permutation (sort l) l.
Proof. induction l as [|n r IH]; cbn; [constructor|]. rewrite insert_perm. now constructor. Qed.

Lemma Qle_bool_false x y : Qle_bool x y = false -> y < x.
Proof. intros H. apply Qnot_le_lt. intros L. apply Qle_bool_iff in L. congruence. Qed.

Lemma insert_sorted n l : StronglySorted ltx l -> (forall c, In c l -> ~ fst n == fst c) -> StronglySorted ltx (insert n l).
Proof.
  induction 1 as [|m r S IH F]; intros N; cbn; [repeat constructor|].
  destruct (Qle_bool (fst n) (fst m)) eqn:E.
  - apply Qle_bool_iff in E. assert (L : ltx n m). { unfold ltx. apply Qle_lt_or_eq in E. destruct E as [E|E]; [exact E|]. exfalso. apply (N m); [now left|exact E]. }
    constructor; [now constructor|]. constructor; [exact L|]. rewrite Forall_forall in *. intros c Hc. specialize (F c Hc). unfold ltx in *. lra.
  - apply Qle_bool_false in E. constructor; [apply IH; intros c Hc; apply N; now right|]. rewrite Forall_forall in *. intros c Hc.
    apply (Permutation_in _ (insert_perm n r)) in Hc. destruct Hc as [<-|Hc]; [exact E|now apply F].
Qed.
Lemma sort_sorted l : distinct_dates l -> StronglySorted ltx (sort l).
Proof.
  induction 1 as [|n r F D IH]; cbn; [constructor|]. apply insert_sorted; [exact IH|]. intros c Hc. rewrite Forall_forall in F. apply F. now apply (Permutation_in _ (sort_perm r)).
Qed.

Lemma same_node l x y : distinct_dates l -> In x l -> In y l -> fst x == fst y -> x = y.
Proof.
  induction 1 as [|n r F D IH]; cbn; [tauto|]. rewrite Forall_forall in F. intros [<-|Hx] [<-|Hy] E; try reflexivity.
  - exfalso. now apply (F y).
  - exfalso. apply (F x Hx). now symmetry.
  - now apply IH.
Qed.

Lemma seg_spec l : forall a t, StronglySorted ltx (a :: l) -> fst a <= t ->
  ((forall c, In c l -> fst c < t) /\ segment a l t = None) \/
  exists l1 c b l2, a :: l = l1 ++ c :: b :: l2 /\ fst c <= t /\ t <= fst b /\ segment a l t = Some (line c b t).
Proof.
  induction l as [|b r IH]; intros a t S H; cbn [segment]; [left; split; [intros c []|reflexivity]|].
  inversion S as [|? ? S' F]; subst. destruct (Qle_bool t (fst b)) eqn:E.
  - right. exists [], a, b, r. apply Qle_bool_iff in E. repeat split; assumption.
  - apply Qle_bool_false in E. destruct (IH b t S') as [(A & B)|(l1 & c & d & l2 & A & B & C & G)]; [lra| |].
    + left. split; [intros c [<-|Hc]; [exact E|now apply A]|exact B].
    + right. exists (a :: l1), c, d, l2. cbn. rewrite <- A. repeat split; assumption.
Qed.

Lemma sorted_app l1 c b l2 : StronglySorted ltx (l1 ++ c :: b :: l2) -> fst c < fst b /\ forall x, In x (l1 ++ c :: b :: l2) -> fst x <= fst c \/ fst b <= fst x.
Proof.
  induction l1 as [|a l1 IH]; cbn; intros S; inversion S as [|? ? S' F]; subst.
  - inversion S' as [|? ? S2 F2]; subst. inversion F; subst. split; [assumption|]. rewrite Forall_forall in F2.
    intros x [<-|[<-|Hx]]; [left; apply Qle_refl|right; apply Qle_refl|right]. specialize (F2 x Hx). unfold ltx in F2. lra.
  - destruct (IH S') as [A B]. split; [exact A|]. intros x [<-|Hx]; [left|now apply B]. rewrite Forall_forall in F.
    assert (Hc : ltx a c) by (apply F, in_or_app; right; now left). unfold ltx in Hc. lra.
Qed.

(* the whole function: missing outside, on the line between two neighbours inside *)
Lemma interp_spec nodes t : distinct_dates nodes -> nodes <> [] ->
  (outside nodes t /\ interp1d nodes t = None) \/
  (exists c b, neighbours nodes c b /\ fst c <= t /\ t <= fst b /\ interp1d nodes t = Some (line c b t)) \/
  (exists a, nodes = [a] /\ t == fst a /\ interp1d nodes t = Some (snd a)).
Proof.
  intros D N. unfold interp1d. pose proof (sort_perm nodes) as P. pose proof (sort_sorted nodes D) as S.
  destruct (sort nodes) as [|a [|b r]] eqn:E; cbn [interp_sorted].
  - exfalso. apply N. now apply Permutation_nil.
  - apply Permutation_length_1_inv in P. subst nodes. destruct (Qeq_bool t (fst a)) eqn:Q.
    + right. right. exists a. apply Qeq_bool_iff in Q. repeat split. exact Q.
    + left. apply Qeq_bool_neq in Q. split; [|reflexivity]. destruct (Qlt_le_dec t (fst a)) as [H|H]; [left|right]; intros c [<-|[]]; [exact H|].
      apply Qle_lt_or_eq in H. destruct H as [H|H]; [exact H|]. exfalso. apply Q. now symmetry.
  - destruct (Qle_bool (fst a) t) eqn:Q.
    + apply Qle_bool_iff in Q. destruct (seg_spec (b :: r) a t S Q) as [(A & B)|(l1 & c & d & l2 & A & B & C & G)].
      * left. split; [|exact B]. right. intros c Hc. apply (Permutation_in _ (Permutation_sym P)) in Hc. destruct Hc as [<-|Hc]; [|now apply A].
        specialize (A b (or_introl eq_refl)). inversion S as [|? ? S' F]; subst. inversion F; subst. unfold ltx in *. lra.
      * right. left. exists c, d. rewrite A in S. destruct (sorted_app _ _ _ _ S) as [H1 H2]. rewrite A in P. split; [|repeat split; assumption].
        split; [|split; [|split; [exact H1|]]]; [apply (Permutation_in _ P), in_or_app; right; now left|apply (Permutation_in _ P), in_or_app; right; right; now left|].
        intros x Hx. apply H2. now apply (Permutation_in _ (Permutation_sym P)).
    + apply Qle_bool_false in Q. left. split; [|reflexivity]. left. intros c Hc. apply (Permutation_in _ (Permutation_sym P)) in Hc. destruct Hc as [<-|Hc]; [exact Q|].
      inversion S as [|? ? S' F]; subst. rewrite Forall_forall in F. specialize (F c Hc). unfold ltx in F. lra.
Qed.

Lemma line_on a b t : fst a < fst b -> on_line a b t (line a b t).
Proof. intros H. unfold on_line, line. field. lra. Qed.
Lemma line_left a b t : t == fst a -> line a b t == snd a.
Proof. intros H. unfold line. rewrite H. ring. Qed.
Lemma line_right a b t : fst a < fst b -> t == fst b -> line a b t == snd b.
Proof. intros L H. unfold line. rewrite H. field. lra. Qed.

(** the result between two neighbouring dates lies on the straight line between
    the two values *)
Theorem C180_between : forall nodes a b t, distinct_dates nodes -> neighbours nodes a b -> fst a <= t -> t <= fst b ->
  exists v, interp1d nodes t = Some v /\ on_line a b t v.
Proof.
  intros nodes a b t D (Ia & Ib & L & M) H1 H2.
  assert (N : nodes <> []) by (intros ->; destruct Ia).
  destruct (interp_spec nodes t D N) as [[O _]|[(c & d & (Ic & Id & L' & M') & G1 & G2 & ->)|(x & -> & _ & _)]].
  - destruct O as [O|O]; [specialize (O a Ia)|specialize (O b Ib)]; lra.
  - exists (line c d t). split; [reflexivity|]. destruct (M c Ic) as [Mc|Mc].
    + destruct (M' a Ia) as [Ma|Ma].
      * assert (E : a = c) by (apply (same_node nodes); try assumption; lra). subst c. destruct (M' b Ib) as [Mb|Mb]; [lra|]. destruct (M d Id) as [Md|Md]; [lra|].
        assert (E : b = d) by (apply (same_node nodes); try assumption; lra). subst d. now apply line_on.
      * assert (E : d = a) by (apply (same_node nodes); try assumption; lra). subst d. assert (T : t == fst a) by lra. unfold on_line. rewrite (line_right c a t L' T), T. ring.
    + assert (E : c = b) by (apply (same_node nodes); try assumption; lra). subst c. assert (T : t == fst b) by lra. unfold on_line. rewrite (line_left b d t T), T. ring.
  - destruct Ia as [<-|[]], Ib as [<-|[]]. lra.
Qed.
Print Assumptions C180_between.

(** at the dates of the data the values are reproduced *)
Theorem C180_nodes : forall nodes a t, distinct_dates nodes -> In a nodes -> t == fst a ->
  exists v, interp1d nodes t = Some v /\ v == snd a.
Proof.
  intros nodes a t D Ia T. assert (N : nodes <> []) by (intros ->; destruct Ia).
  destruct (interp_spec nodes t D N) as [[O _]|[(c & d & (Ic & Id & L' & M') & G1 & G2 & ->)|(x & -> & _ & ->)]].
  - destruct O as [O|O]; specialize (O a Ia); lra.
  - exists (line c d t). split; [reflexivity|]. destruct (M' a Ia) as [Ma|Ma].
    + assert (E : a = c) by (apply (same_node nodes); try assumption; lra). subst c. now apply line_left.
    + assert (E : a = d) by (apply (same_node nodes); try assumption; lra). subst d. now apply line_right.
  - destruct Ia as [<-|[]]. exists (snd x). split; reflexivity.
Qed.
Print Assumptions C180_nodes.

(** a value is missing exactly if the date lies outside of the data *)
Theorem C180_outside : forall nodes t, distinct_dates nodes -> nodes <> [] ->
  (interp1d nodes t = None <-> outside nodes t).
Proof.
  intros nodes t D N. destruct (interp_spec nodes t D N) as [[O E]|[(c & d & (Ic & Id & L' & M') & G1 & G2 & E)|(x & Hx & T & E)]]; rewrite E.
  - tauto.
  - split; [discriminate|]. intros [O|O]; [specialize (O c Ic)|specialize (O d Id)]; lra.
  - split; [discriminate|]. subst nodes. intros [O|O]; specialize (O x (or_introl eq_refl)); lra.
Qed.
Print Assumptions C180_outside.

(** no result lies outside of the range of the data *)
Theorem C180_bounds : forall nodes t v lo hi, distinct_dates nodes -> interp1d nodes t = Some v ->
  (forall c, In c nodes -> lo <= snd c <= hi) -> lo <= v <= hi.
Proof.
  intros nodes t v lo hi D E B. assert (N : nodes <> []) by (intros ->; discriminate).
  destruct (interp_spec nodes t D N) as [[O E']|[(c & d & (Ic & Id & L & M) & G1 & G2 & E')|(x & Hx & T & E')]]; rewrite E in E'; try discriminate; injection E' as ->.
  - pose proof (B c Ic) as [B1 B2]. pose proof (B d Id) as [B3 B4].
    set (w := (t - fst c) / (fst d - fst c)). assert (W : 0 <= w <= 1).
    { unfold w. split; [apply Qle_shift_div_l; lra|apply Qle_shift_div_r; lra]. }
    assert (V : line c d t == (1 - w) * snd c + w * snd d) by (unfold line, w; field; lra). rewrite V. clearbody w. split; nra.
  - apply B. subst nodes. now left.
Qed.
Print Assumptions C180_bounds.

(** values on a straight line are interpolated exactly *)
Theorem C180_linear : forall nodes t v k d, distinct_dates nodes -> interp1d nodes t = Some v ->
  (forall c, In c nodes -> snd c == k * fst c + d) -> v == k * t + d.
Proof.
  intros nodes t v k d D E B. assert (N : nodes <> []) by (intros ->; discriminate).
  destruct (interp_spec nodes t D N) as [[O E']|[(c & b & (Ic & Ib & L & M) & G1 & G2 & E')|(x & Hx & T & E')]]; rewrite E in E'; try discriminate; injection E' as ->.
  - unfold line. rewrite (B c Ic), (B b Ib). field. lra.
  - subst nodes. rewrite (B x (or_introl eq_refl)), T. reflexivity.
Qed.
Print Assumptions C180_linear.

Lemma sorted_unique l m : StronglySorted ltx l -> StronglySorted ltx m -> Permutation l m -> l = m.
Proof.
  revert m. induction l as [|a l IH]; intros m S T P; [symmetry; now apply Permutation_nil|].
  destruct m as [|b m]; [now apply Permutation_sym, Permutation_nil in P|].
  inversion S as [|? ? S' F]; inversion T as [|? ? T' G]; subst. rewrite Forall_forall in F, G.
  assert (E : a = b).
  { assert (A : In a (b :: m)) by (apply (Permutation_in _ P); now left). assert (B : In b (a :: l)) by (apply (Permutation_in _ (Permutation_sym P)); now left).
    destruct A as [A|A]; [now symmetry|]. destruct B as [B|B]; [exact B|]. specialize (F b B). specialize (G a A). unfold ltx in *. lra. }
  subst b. f_equal. apply IH; try assumption. now apply Permutation_cons_inv in P.
Qed.
Lemma distinct_perm l m : Permutation l m -> distinct_dates l -> distinct_dates m.
Proof.
  intros P D. assert (S := sort_sorted l D). assert (Q : Permutation (sort l) m) by now rewrite sort_perm.
  assert (G : forall q, StronglySorted ltx q -> distinct_dates q).
  { induction 1 as [|a q S' IH F]; [constructor|]. constructor; [|exact IH]. rewrite Forall_forall in *. intros c Hc E. specialize (F c Hc). unfold ltx in F. lra. }
  apply G in S. clear G D P. revert S Q. generalize (sort l). clear l. intros l S Q. induction Q as [| |x y q|]; [exact S| | |auto].
  - inversion S as [|? ? F D]; subst. constructor; [|now apply IHQ]. rewrite Forall_forall in *. intros c Hc. apply F. now apply (Permutation_in _ (Permutation_sym Q)).
  - inversion S as [|? ? F D]; subst. inversion D as [|? ? F' D']; subst. inversion F; subst. constructor; [constructor; [|exact F']|now constructor]. intros E. apply H1. now symmetry.
Qed.

(** the order of the rows does not matter *)
Theorem C180_order : forall nodes nodes' t, distinct_dates nodes -> Permutation nodes nodes' -> interp1d nodes' t = interp1d nodes t.
Proof.
  intros nodes nodes' t D P. unfold interp1d. f_equal. apply sorted_unique; [apply sort_sorted; now apply (distinct_perm nodes)|now apply sort_sorted|].
  now rewrite !sort_perm, P.
Qed.
Print Assumptions C180_order.

(** the returned object: the rows are the given dates, one by one; a DataFrame is
    treated column by column *)
Theorem C180_result : forall L (jd : L -> Q) index di,
  (forall rows, exists out, interpolate_to_index jd (PSeries rows) index di = Ok (OSeries out) /\ map fst out = index /\
     forall t v, In (t, v) out -> v = interp1d (map (fun r => (jd (fst r), snd r)) rows) (jd t)) /\
  (forall cols rows, exists out, interpolate_to_index jd (PFrame cols rows) index di = Ok (OFrame cols out) /\ map fst out = index /\
     (forall t vs, In (t, vs) out -> List.length vs = List.length cols) /\
     forall j, (j < List.length cols)%nat ->
       interpolate_to_index jd (PSeries (map (fun r => (fst r, nth j (snd r) 0)) rows)) index di =
       Ok (OSeries (map (fun r => (fst r, nth j (snd r) None)) out))).
Proof.
  intros L jd index di. split.
  - intros rows. eexists. split; [reflexivity|]. rewrite map_map. cbn [fst]. split; [apply map_id|]. intros t v H. apply in_map_iff in H. destruct H as (t' & [= <- <-] & _). reflexivity.
  - intros cols rows. eexists. split; [reflexivity|]. rewrite map_map. cbn [fst]. split; [apply map_id|]. split.
    + intros t vs H. apply in_map_iff in H. destruct H as (t' & [= <- <-] & _). now rewrite map_length, seq_length.
    + intros j Hj. cbn [interpolate_to_index]. apply (f_equal (fun z => Ok (OSeries z))). rewrite (map_map _ _ index). apply map_ext. intros t. cbn [fst snd]. f_equal.
      rewrite map_map. cbn [fst snd]. set (f := fun j => interp1d (map (fun r => (jd (fst r), nth j (snd r) 0)) rows) (jd t)). change (interp1d _ _) with (f j).
      rewrite (nth_indep _ None (f O)) by now rewrite map_length, seq_length. rewrite map_nth, seq_nth by exact Hj. reflexivity.
Qed.
Print Assumptions C180_result.

(** ** lists and arrays, announced in the docstring, are never interpolated *)
Theorem C180_arrays_refuted : forall L (jd : L -> Q) values index di,
  interpolate_to_index jd (PArray (L := L) values) index di = Err (match di with None => AssertionError | Some _ => AttributeError end).
Proof. intros L jd values index [l|]; reflexivity. Qed.
Print Assumptions C180_arrays_refuted.

(** monthly values at the days 30, 0 and 10, asked for at the days 5, 40, 10 and 20 *)
Definition eg_nodes : list (Q * Q) := [(30, 7); (0, 1); (10, 3)].
Example C180_example :
  distinct_dates eg_nodes /\ neighbours eg_nodes (10, 3) (30, 7) /\ ~ outside eg_nodes 20 /\ outside eg_nodes 40 /\
  Permutation eg_nodes [(0, 1); (10, 3); (30, 7)] /\
  match interpolate_to_index (fun t => t) (PSeries eg_nodes) [5; 40; 10; 20] None with
  | Ok (OSeries [(_, Some a); (_, None); (_, Some b); (_, Some c)]) => a == 2 /\ b == 3 /\ c == 5
  | _ => False
  end.
Proof.
  split; [repeat constructor; cbn; lra|]. split; [|split; [|split; [|split]]].
  - unfold neighbours. cbn. split; [tauto|]. split; [tauto|]. split; [lra|]. intros c [<-|[<-|[<-|[]]]]; cbn; lra.
  - intros [O|O]; [specialize (O (0, 1))|specialize (O (30, 7))]; cbn in O; intuition lra.
  - right. intros c [<-|[<-|[<-|[]]]]; cbn; lra.
  - apply (Permutation_cons_append [(0, 1); (10, 3)] (30, 7)).
  - vm_compute. repeat split; reflexivity.
Qed.
