(** Proofs about groups of dates and the assignment of values *)
From Coq Require Import String Ascii ZArith Bool Lia Permutation Sorted Arith List.
From Verif Require Import Base Base_Proofs GF_Model GF_Proofs Str_Model Fit_Model Fit_Spec Fit_Proofs.
Import ListNotations.
Local Open Scope list_scope.

(** ** groupby in closed form *)
Lemma dict_closed {K V} (keq : forall x y : K, {x = y} + {x <> y}) (d : dict K V) (v : K -> V) : NoDup (keys d) ->
  (forall k, In k (keys d) -> dget keq k d = Some (v k)) -> d = map (fun k => (k, v k)) (keys d).
Proof.
  induction d as [|[k x] d IH]; simpl; intros Hn H; [reflexivity|]. inversion Hn as [|? ? Hk Hd]; subst.
  f_equal.
  - specialize (H k (or_introl eq_refl)). destruct (keq k k); [|congruence]. congruence.
  - apply IH; auto. intros k' Hk'. specialize (H k' (or_intror Hk')).
    destruct (keq k' k) as [->|]; [contradiction|exact H].
Qed.

Lemma groupby_closed {A K B} (keq : forall x y : K, {x = y} + {x <> y}) (key : A -> K) (get : A -> B) a :
  groupby_unsorted keq key get a =
  map (fun k => (k, map get (filter (fun x => if keq (key x) k then true else false) a))) (first_occ keq [] (map key a)).
Proof.
  rewrite <- (groupby_keys keq key get a).
  apply (dict_closed keq); rewrite groupby_keys; [apply NoDup_first_occ|].
  intros k Hk. rewrite groupby_get. apply in_first_occ in Hk. destruct Hk as [Hk _].
  apply in_map_iff in Hk. destruct Hk as (x & Ex & Hx).
  destruct (map get _) eqn:E; [|reflexivity]. exfalso.
  apply map_eq_nil in E. assert (Hf : In x (filter (fun x => if keq (key x) k then true else false) a)).
  { apply filter_In. split; auto. destruct (keq (key x) k); [reflexivity|congruence]. }
  rewrite E in Hf. destruct Hf.
Qed.

Lemma first_occ_filter l seen x : first_occ Z.eq_dec (x :: seen) l =
  filter (fun y => negb (Z.eqb y x)) (first_occ Z.eq_dec seen l).
Proof.
  revert seen. induction l as [|z l IH]; intros seen; simpl; [reflexivity|].
  destruct (in_dec Z.eq_dec z seen) as [i|i].
  - destruct (Z.eq_dec x z) as [->|]; [apply IH|]. apply IH.
  - destruct (Z.eq_dec x z) as [->|n].
    + cbn [filter]. rewrite Z.eqb_refl. cbn [negb]. rewrite (IH seen).
      clear IH i. generalize (first_occ Z.eq_dec seen l). intros m.
      induction m as [|w m IHm]; simpl; [reflexivity|].
      destruct (Z.eqb w z) eqn:E; simpl; [exact IHm|]. rewrite E. simpl. f_equal. exact IHm.
    + cbn [filter]. destruct (Z.eqb_spec z x); [congruence|]. cbn [negb]. f_equal.
      rewrite (first_occ_ext Z.eq_dec l (z :: x :: seen) (x :: z :: seen)) by (intros; simpl; tauto).
      apply IH.
Qed.

Lemma uniq_first_occ l : uniq l = first_occ Z.eq_dec [] l.
Proof. induction l as [|x l IH]; simpl; [reflexivity|]. rewrite first_occ_filter, IH. reflexivity. Qed.

Lemma in_uniq l x : In x (uniq l) <-> In x l.
Proof. rewrite uniq_first_occ, in_first_occ. simpl. tauto. Qed.
Lemma NoDup_uniq l : NoDup (uniq l).
Proof. rewrite uniq_first_occ. apply NoDup_first_occ. Qed.

Lemma number_nth x l : In x l -> nth (number x l) l 0%Z = x /\ (number x l < length l)%nat.
Proof.
  induction l as [|y l IH]; simpl; [tauto|]. intros H. destruct (Z.eqb_spec x y) as [->|n]; [split; [auto|lia]|].
  destruct IH as [A B]; [destruct H; congruence|]. split; [exact A|lia].
Qed.
Lemma number_of_nth l i : NoDup l -> (i < length l)%nat -> number (nth i l 0%Z) l = i.
Proof.
  intros Hn Hi. destruct (number_nth (nth i l 0%Z) l (nth_In _ _ Hi)) as [A B].
  apply (proj1 (NoDup_nth l 0%Z) Hn); auto.
Qed.
Lemma pos_number x l : pos x l = number x l.
Proof.
  induction l as [|y l IH]; simpl; [reflexivity|]. destruct (Z.eq_dec x y), (Z.eqb_spec x y); congruence.
Qed.
Lemma rank_lt l x : In x l -> (rank l x < length (uniq l))%nat.
Proof. intros H. apply number_nth, in_uniq. exact H. Qed.
Lemma rank_inj l x y : In x l -> In y l -> rank l x = rank l y -> x = y.
Proof.
  intros Hx Hy E. apply (proj2 (in_uniq _ _)) in Hx, Hy. destruct (number_nth x _ Hx) as [A _], (number_nth y _ Hy) as [B _].
  unfold rank in E. congruence.
Qed.

(** ** sorted lists *)
Lemma sorted_perm_eq l m : sorted l -> sorted m -> Permutation l m -> l = m.
Proof.
  revert m. induction l as [|x l IH]; intros m Hl Hm Hp.
  - apply Permutation_nil in Hp. auto.
  - destruct m as [|y m]; [apply Permutation_sym, Permutation_nil in Hp; discriminate|].
    inversion Hl as [|? ? Sl Fl]; inversion Hm as [|? ? Sm Fm]; subst.
    rewrite Forall_forall in Fl, Fm.
    assert (x = y).
    { pose proof (Permutation_in x Hp (or_introl eq_refl)) as H1.
      pose proof (Permutation_in y (Permutation_sym Hp) (or_introl eq_refl)) as H2.
      destruct H1 as [|H1], H2 as [|H2]; try congruence. specialize (Fl _ H2). specialize (Fm _ H1). lia. }
    subst y. f_equal. apply IH; auto. apply Permutation_cons_inv with x. exact Hp.
Qed.

Lemma sorted_app l m : sorted l -> sorted m -> (forall x y, In x l -> In y m -> (x <= y)%Z) -> sorted (l ++ m).
Proof.
  unfold sorted. induction 1 as [|x l Hl IH Hx]; simpl; intros Hm Hc; auto.
  constructor; [apply IH; auto|]. rewrite Forall_forall in *. intros y Hy. apply in_app_or in Hy. destruct Hy; auto.
Qed.

Lemma sorted_repeat x n : sorted (repeat x n).
Proof. unfold sorted. induction n; simpl; constructor; auto. apply Forall_forall. intros y Hy. apply repeat_spec in Hy. lia. Qed.

Lemma sorted_blocks (l : list (Z * nat)) : sorted (map fst l) -> sorted (concat (map (fun p => repeat (fst p) (snd p)) l)).
Proof.
  induction l as [|[k m] l IH]; simpl; intros H; [constructor|]. inversion H as [|? ? Hs Hf]; subst.
  apply sorted_app; [apply sorted_repeat|apply IH; auto|].
  intros x y Hx Hy. apply repeat_spec in Hx. subst x. apply in_concat in Hy. destruct Hy as (s & Hs' & Hy).
  apply in_map_iff in Hs'. destruct Hs' as (q & <- & Hq). apply repeat_spec in Hy. subst y.
  rewrite Forall_forall in Hf. apply Hf, in_map, Hq.
Qed.

Lemma sorted_filter f l : sorted l -> sorted (filter f l).
Proof. apply filter_sorted. Qed.

Lemma sorted_uniq l : sorted l -> sorted (uniq l).
Proof.
  unfold sorted. induction 1 as [|x l Hl IH Hx]; simpl; constructor.
  - apply filter_sorted. exact IH.
  - rewrite Forall_forall in *. intros y Hy. apply filter_In in Hy. destruct Hy as [Hy _]. apply (proj1 (in_uniq _ _)) in Hy. auto.
Qed.

Lemma count_filter (a k : Z) l : count_occ Z.eq_dec (filter (fun x => if Z.eq_dec x k then true else false) l) a =
  if Z.eq_dec a k then count_occ Z.eq_dec l a else 0%nat.
Proof.
  induction l as [|x l IH]; simpl; [destruct (Z.eq_dec a k); reflexivity|].
  destruct (Z.eq_dec x k); simpl; destruct (Z.eq_dec x a); rewrite ?IH; destruct (Z.eq_dec a k); congruence.
Qed.

(** the runs of a sorted list *)
Lemma runs_perm l : Permutation (concat (map (fun k => filter (fun x => if Z.eq_dec x k then true else false) l) (uniq l))) l.
Proof.
  pose proof (groupby_perm Z.eq_dec (fun x => x) (fun x => x) l) as H. rewrite groupby_closed in H.
  rewrite map_map, !map_id, <- uniq_first_occ in H. simpl in H.
  erewrite map_ext; [exact H|]. intros k. simpl. rewrite map_id. reflexivity.
Qed.

Lemma filter_eq_repeat l k : filter (fun x => if Z.eq_dec x k then true else false) l =
  repeat k (length (filter (fun x => if Z.eq_dec x k then true else false) l)).
Proof.
  induction l as [|x l IH]; simpl; [reflexivity|]. destruct (Z.eq_dec x k) as [->|]; simpl; [f_equal|]; exact IH.
Qed.

Definition mult (l : list Z) (k : Z) : nat := length (filter (fun x => if Z.eq_dec x k then true else false) l).

Lemma sorted_runs l : sorted l -> l = concat (map (fun k => repeat k (mult l k)) (uniq l)).
Proof.
  intros H. apply sorted_perm_eq; auto.
  - pose proof (sorted_blocks (map (fun k => (k, mult l k)) (uniq l))) as B.
    rewrite !map_map in B. simpl in B. rewrite map_id in B. apply B, sorted_uniq, H.
  - rewrite (map_ext _ (fun k => filter (fun x => if Z.eq_dec x k then true else false) l)).
    + symmetry. apply runs_perm.
    + intros k. symmetry. apply filter_eq_repeat.
Qed.

(** merging the runs of equal keys *)
Lemma merge_runs (l : list (Z * nat)) : sorted (map fst l) ->
  concat (map (fun kv => repeat (fst kv) (fold_right Nat.add 0%nat (snd kv))) (groupby_unsorted Z.eq_dec fst snd l)) =
  concat (map (fun p => repeat (fst p) (snd p)) l).
Proof.
  intros Hs. rewrite groupby_closed, map_map, <- uniq_first_occ. simpl.
  apply sorted_perm_eq.
  - pose proof (sorted_blocks (map (fun k => (k, fold_right Nat.add 0%nat (map snd (filter (fun x => if Z.eq_dec (fst x) k then true else false) l)))) (uniq (map fst l)))) as B.
    rewrite !map_map in B. simpl in B. rewrite map_id in B. apply B, sorted_uniq, Hs.
  - apply sorted_blocks, Hs.
  - clear Hs. apply (Permutation_count_occ Z.eq_dec). intros a.
    assert (R : forall k n, count_occ Z.eq_dec (repeat k n) a = if Z.eq_dec k a then n else 0%nat).
    { intros k n. induction n; simpl; destruct (Z.eq_dec k a); auto. }
    assert (L : count_occ Z.eq_dec (concat (map (fun p => repeat (fst p) (snd p)) l)) a =
                fold_right Nat.add 0%nat (map snd (filter (fun x => if Z.eq_dec (fst x) a then true else false) l))).
    { clear -R. induction l as [|[k m] l IH]; simpl; [reflexivity|]. rewrite count_occ_app, R, IH.
      destruct (Z.eq_dec k a); reflexivity. }
    rewrite L. clear L.
    set (S := fun k => fold_right Nat.add 0%nat (map snd (filter (fun x => if Z.eq_dec (fst x) k then true else false) l))).
    change (count_occ Z.eq_dec (concat (map (fun k => repeat k (S k)) (uniq (map fst l)))) a = S a).
    assert (G : forall ks, NoDup ks -> count_occ Z.eq_dec (concat (map (fun k => repeat k (S k)) ks)) a =
                if in_dec Z.eq_dec a ks then S a else 0%nat).
    { induction ks as [|k ks IH]; intros Hn; [reflexivity|]. inversion Hn as [|? ? Hk Hks]; subst.
      cbn [map concat]. rewrite count_occ_app, R, (IH Hks).
      destruct (Z.eq_dec k a) as [->|n].
      - destruct (in_dec Z.eq_dec a ks); [contradiction|]. destruct (in_dec Z.eq_dec a (a :: ks)) as [i|i]; [lia|].
        exfalso; apply i; left; auto.
      - destruct (in_dec Z.eq_dec a ks) as [i|i], (in_dec Z.eq_dec a (k :: ks)) as [j|j]; try lia.
        + exfalso; apply j; right; auto.
        + destruct j; [congruence|contradiction]. }
    rewrite G by apply NoDup_uniq.
    destruct (in_dec Z.eq_dec a (uniq (map fst l))) as [i|i]; [reflexivity|].
    unfold S.
    replace (filter (fun x => if Z.eq_dec (fst x) a then true else false) l) with (@nil (Z * nat)); [reflexivity|].
    symmetry. rewrite in_uniq in i. clear -i. induction l as [|[k m] l IH]; simpl in *; [reflexivity|].
    destruct (Z.eq_dec k a); [exfalso; apply i; auto|]. apply IH. tauto.
Qed.

Lemma groupby_map {A' A K B} (keq : forall x y : K, {x = y} + {x <> y}) (h : A' -> A) (key : A -> K) (get : A -> B) a :
  groupby_unsorted keq key get (map h a) = groupby_unsorted keq (fun x => key (h x)) (fun x => get (h x)) a.
Proof.
  unfold groupby_unsorted. generalize (@nil (K * list B)). induction a as [|x a IH]; intros d; simpl; auto.
Qed.

(** ** integer frequencies *)
Lemma add_at_length i l : length (add_at i l) = length l.
Proof. revert i. induction l as [|x l IH]; intros [|i]; simpl; auto. Qed.
Lemma add_at_nth i k l : (k < length l)%nat -> nth k (add_at i l) 0%nat = (nth k l 0 + if Nat.eqb k i then 1 else 0)%nat.
Proof.
  revert i k. induction l as [|x l IH]; intros [|i] [|k]; simpl; intros H; try lia.
  rewrite IH by lia. reflexivity.
Qed.
Lemma add_at_total i l : (i < length l)%nat -> total (add_at i l) = S (total l).
Proof. revert i. induction l as [|x l IH]; intros [|i]; simpl; intros H; try lia. rewrite IH by lia. lia. Qed.

Lemma distribute_ok n rest : (1 <= n)%nat -> exists e, distribute n rest = Ok e /\ length e = n /\ total e = rest /\
  forall k, (k < n)%nat -> nth k e 0%nat = (rest / n + if Nat.ltb k (rest mod n) then 1 else 0)%nat.
Proof.
  intros Hn. unfold distribute. destruct n as [|n']; [lia|]. set (n := S n') in *.
  exists (fold_left (fun l r => add_at (r mod n) l) (seq 0 rest) (repeat 0%nat n)). split; [destruct rest; reflexivity|].
  clearbody n. clear n'. induction rest as [|r (L & T & N)].
  - cbn [seq fold_left]. rewrite repeat_length. repeat split.
    + clear. induction n; simpl; auto.
    + intros k Hk. rewrite Nat.mod_0_l, Nat.div_0_l by lia. rewrite (nth_repeat 0%nat). reflexivity.
  - rewrite seq_S, fold_left_app. cbn [Nat.add fold_left].
    set (e := fold_left (fun l r0 => add_at (r0 mod n) l) (seq 0 r) (repeat 0%nat n)) in *.
    pose proof (Nat.mod_upper_bound r n ltac:(lia)) as Hm. repeat split.
    + rewrite add_at_length. exact L.
    + rewrite add_at_total by lia. lia.
    + intros k Hk. rewrite add_at_nth by lia. rewrite N by lia.
      pose proof (Nat.div_mod r n ltac:(lia)) as Hd.
      set (q := (r / n)%nat) in *. set (m := (r mod n)%nat) in *.
      destruct (Nat.eq_dec (S m) n) as [E|E].
      * assert (Hq : (S r / n = S q)%nat). { symmetry. apply (Nat.div_unique _ _ _ 0); nia. }
        assert (Hr : (S r mod n = 0)%nat). { symmetry. apply (Nat.mod_unique _ _ (S q)); nia. }
        rewrite Hq, Hr. destruct (Nat.ltb_spec k m), (Nat.eqb_spec k m), (Nat.ltb_spec k 0); lia.
      * assert (Hq : (S r / n = q)%nat). { symmetry. apply (Nat.div_unique _ _ _ (S m)); nia. }
        assert (Hr : (S r mod n = S m)%nat). { symmetry. apply (Nat.mod_unique _ _ q); nia. }
        rewrite Hq, Hr. destruct (Nat.ltb_spec k m), (Nat.eqb_spec k m), (Nat.ltb_spec k (S m)); lia.
Qed.

Lemma combine_seq_nth {A} (e : list A) d s : combine (seq s (length e)) e = map (fun k => (k, nth (k - s) e d)) (seq s (length e)).
Proof.
  revert s. induction e as [|x e IH]; intros s; simpl; [reflexivity|]. rewrite Nat.sub_diag. f_equal.
  rewrite IH. apply map_ext_in. intros k Hk. apply in_seq in Hk. f_equal.
  replace (k - s)%nat with (S (k - S s)) by lia. reflexivity.
Qed.

Lemma sorted_seqZ s n : sorted (map Z.of_nat (seq s n)).
Proof.
  unfold sorted. revert s. induction n as [|n IH]; intros s; simpl; constructor; auto.
  apply Forall_forall. intros y Hy. apply in_map_iff in Hy. destruct Hy as (i & <- & Hi). apply in_seq in Hi. lia.
Qed.

Lemma concat_repeat_length (l : list (Z * nat)) :
  length (concat (map (fun p => repeat (fst p) (snd p)) l)) = total (map snd l).
Proof. induction l as [|[k m] l IH]; simpl; [reflexivity|]. rewrite app_length, repeat_length, IH. reflexivity. Qed.

Lemma count_blocks (l : list (Z * nat)) a : NoDup (map fst l) -> In a (map fst l) ->
  forall m, In (a, m) l -> count_occ Z.eq_dec (concat (map (fun p => repeat (fst p) (snd p)) l)) a = m.
Proof.
  assert (R : forall k n, count_occ Z.eq_dec (repeat k n) a = if Z.eq_dec k a then n else 0%nat).
  { intros k n. induction n; simpl; destruct (Z.eq_dec k a); auto. }
  assert (Z0 : forall l : list (Z * nat), ~ In a (map fst l) ->
      count_occ Z.eq_dec (concat (map (fun p => repeat (fst p) (snd p)) l)) a = 0%nat).
  { clear -R. induction l as [|[k m] l IH]; simpl; intros H; [reflexivity|]. rewrite count_occ_app, R, IH by tauto.
    destruct (Z.eq_dec k a); [exfalso; tauto|reflexivity]. }
  induction l as [|[k n] l IH]; simpl; intros Hn Ha m Hm; [tauto|]. inversion Hn as [|? ? Hk Hl]; subst.
  rewrite count_occ_app, R. destruct Hm as [E|Hm].
  - injection E as -> ->. destruct (Z.eq_dec a a); [|congruence]. rewrite Z0 by auto. lia.
  - destruct (Z.eq_dec k a) as [->|]; [exfalso; apply Hk; apply (in_map fst) in Hm; exact Hm|].
    simpl. apply IH; auto. apply (in_map fst) in Hm. exact Hm.
Qed.

Lemma map_rep {A B} (f : A -> B) x n : map f (repeat x n) = repeat (f x) n.
Proof. induction n; simpl; congruence. Qed.

(** a list laid out over the runs of a sorted index is a function of the date *)
Lemma runs_map (us : list Z) (dyn0 : list Z) (m : Z -> nat) : NoDup us -> length dyn0 = length us ->
  concat (map (fun p => repeat (fst p) (snd p)) (combine dyn0 (map m us))) =
  map (fun t => nth (number t us) dyn0 0%Z) (concat (map (fun k => repeat k (m k)) us)).
Proof.
  intros Hn Hl.
  assert (G : forall vs ds, length ds = length vs -> (forall i, (i < length vs)%nat -> nth (number (nth i vs 0%Z) us) dyn0 0%Z = nth i ds 0%Z) ->
     concat (map (fun p => repeat (fst p) (snd p)) (combine ds (map m vs))) =
     map (fun t => nth (number t us) dyn0 0%Z) (concat (map (fun k => repeat k (m k)) vs))).
  { induction vs as [|v vs IH]; destruct ds as [|d ds]; simpl; intros L H; try lia; [reflexivity|].
    rewrite map_app. f_equal.
    - pose proof (H 0%nat ltac:(lia)) as H0. simpl in H0. rewrite map_rep, H0. reflexivity.
    - apply IH; [lia|]. intros i Hi. apply (H (S i)). lia. }
  apply G; auto. intros i Hi. rewrite number_of_nth; auto.
Qed.

Definition sizes (f : nat) (n k : nat) : nat :=
  (f + ((n mod f) / (n / f) + if Nat.ltb k ((n mod f) mod (n / f)) then 1 else 0))%nat.

Definition block_numbers (f n : nat) : list Z :=
  concat (map (fun p => repeat (fst p) (snd p)) (map (fun k => (Z.of_nat k, sizes f n k)) (seq 0 (n / f)))).

Lemma block_numbers_length f n : (1 <= f <= n)%nat -> length (block_numbers f n) = n.
Proof.
  intros H. unfold block_numbers. rewrite concat_repeat_length, map_map. simpl.
  assert (Hg : (1 <= n / f)%nat) by (apply Nat.div_le_lower_bound; lia).
  destruct (distribute_ok (n / f) (n mod f) Hg) as (e & _ & L & T & N).
  assert (E : map (fun k => sizes f n k) (seq 0 (n / f)) = map (fun x => (f + x)%nat) e).
  { apply nth_ext with (d := 0%nat) (d' := 0%nat); [rewrite !map_length, seq_length; auto|].
    intros i. rewrite map_length, seq_length. intros Hi.
    rewrite (nth_map_lt _ _ i 0%nat) by (rewrite seq_length; auto). rewrite seq_nth by auto.
    rewrite (nth_map_lt _ e i 0%nat) by lia. rewrite N by auto. reflexivity. }
  rewrite E. assert (G : forall l, total (map (fun x => (f + x)%nat) l) = (length l * f + total l)%nat).
  { induction l; simpl; lia. }
  rewrite G, L, T. pose proof (Nat.div_mod n f ltac:(lia)). lia.
Qed.

Lemma block_numbers_sorted f n : sorted (block_numbers f n).
Proof. apply sorted_blocks. rewrite map_map. simpl. apply sorted_seqZ. Qed.

Lemma block_numbers_count f n k : (k < n / f)%nat -> count_occ Z.eq_dec (block_numbers f n) (Z.of_nat k) = sizes f n k.
Proof.
  intros Hk. unfold block_numbers. apply count_blocks.
  - rewrite map_map. simpl. apply FinFun.Injective_map_NoDup; [|apply seq_NoDup]. intros a b; lia.
  - rewrite map_map. simpl. apply in_map, in_seq. lia.
  - apply in_map_iff. exists k. split; auto. apply in_seq. lia.
Qed.

Lemma int_dyn_ok f index : sorted index -> (1 <= f <= length (uniq index))%nat ->
  int_dyn (Z.of_nat f) index =
  Ok (map (fun t => nth (rank index t) (block_numbers f (length (uniq index))) 0%Z) index).
Proof.
  intros Hs Hf. unfold int_dyn. destruct (Z.eqb_spec (Z.of_nat f) 0) as [H0|_]; [lia|].
  set (dates := groupby_unsorted Z.eq_dec (fun x => x) (fun x => x) index).
  assert (Hd : dates = map (fun k => (k, filter (fun x => if Z.eq_dec x k then true else false) index)) (uniq index)).
  { unfold dates. rewrite groupby_closed, map_id, <- uniq_first_occ. apply map_ext. intros k. rewrite map_id. reflexivity. }
  assert (Ld : length dates = length (uniq index)) by (rewrite Hd, map_length; reflexivity).
  rewrite Ld. set (n := length (uniq index)) in *. cbv zeta.
  rewrite <- (Nat2Z.inj_div n f), <- (Nat2Z.inj_mod n f), !Nat2Z.id.
  assert (Hg : (1 <= n / f)%nat) by (apply Nat.div_le_lower_bound; lia).
  destruct (distribute_ok (n / f) (n mod f) Hg) as (e & E & L & T & N). rewrite E. cbn [bind].
  destruct (Z.leb_spec (Z.of_nat (n / f)) 0); [lia|]. cbn [andb]. f_equal.
  assert (Hdyn : concat (map (fun p => repeat (Z.of_nat (fst p)) (Z.to_nat (Z.of_nat f + Z.of_nat (snd p)))) (combine (seq 0 (n / f)) e)) = block_numbers f n).
  { unfold block_numbers. rewrite <- L, (combine_seq_nth e 0%nat), !map_map. f_equal. apply map_ext_in.
    intros k Hk. apply in_seq in Hk. cbn [fst snd]. rewrite Nat.sub_0_r, N by lia.
    rewrite <- Nat2Z.inj_add, Nat2Z.id. reflexivity. }
  rewrite Hdyn.
  change (fun p : Z * list Z => length (snd p)) with (fun p : Z * list Z => snd ((fun q : Z * list Z => (fst q, length (snd q))) p)).
  change (groupby_unsorted Z.eq_dec fst) with (groupby_unsorted (B := nat) Z.eq_dec (fun p : Z * list Z => fst ((fun q : Z * list Z => (fst q, length (snd q))) p))).
  rewrite <- (groupby_map Z.eq_dec (fun q : Z * list Z => (fst q, length (snd q))) fst snd).
  assert (Hc : map (fun q : Z * list Z => (fst q, length (snd q))) (combine (block_numbers f n) (map snd dates)) =
          combine (block_numbers f n) (map (mult index) (uniq index))).
  { rewrite Hd, map_map. cbn [snd]. pose proof (block_numbers_length f n Hf) as LB. fold n in LB.
    clear -LB. revert LB. generalize (block_numbers f n). subst n. generalize (uniq index).
    induction l as [|u us IH]; destruct l as [|b bs]; simpl; intros H; try lia; [reflexivity|]. f_equal. apply IH. lia. }
  rewrite Hc, merge_runs.
  - rewrite runs_map; [|apply NoDup_uniq|apply block_numbers_length; exact Hf].
    unfold mult. fold (mult index). rewrite <- (sorted_runs index Hs) at 1. reflexivity.
  - assert (F : map fst (combine (block_numbers f n) (map (mult index) (uniq index))) = block_numbers f n).
    { pose proof (block_numbers_length f n Hf) as LB. assert (LL : length (block_numbers f n) = length (map (mult index) (uniq index))) by (rewrite map_length; exact LB).
      revert LL. generalize (map (mult index) (uniq index)) as l0. generalize (block_numbers f n). clear.
      intros l. induction l as [|a l IH]; intros [|b l0]; simpl; intros; try lia; [reflexivity|]. f_equal. apply IH. lia. }
    rewrite F. apply block_numbers_sorted.
Qed.
