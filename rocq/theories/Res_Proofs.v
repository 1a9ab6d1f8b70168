From Coq Require Import ZArith Reals Bool Lia Lra Permutation Sorted Arith List.
From Verif Require Import Base GF_Model Fit_Model Fit_Spec Fit_Proofs Fit2_Proofs Fit3_Proofs Fit4_Proofs Fit5_Proofs Res_Model Res_Spec.
Import ListNotations.
Local Open Scope list_scope.

Lemma combine_maps {I X Y} (f : I -> X) (g : I -> Y) l : combine (map f l) (map g l) = map (fun i => (f i, g i)) l.
Proof. induction l; simpl; congruence. Qed.

Lemma cells_map {I X Y Z} (h : X -> Y -> Z) (f : I -> X) (g : I -> Y) rows :
  cells h (map (map f) rows) (map (map g) rows) = map (map (fun i => h (f i) (g i))) rows.
Proof.
  unfold cells. rewrite combine_maps, map_map. apply map_ext. intros r. cbn [fst snd].
  rewrite combine_maps, map_map. reflexivity.
Qed.

Lemma stack_map {I X A} (fs : list (I -> X)) (g : I -> A) rows :
  stack (map (fun f => map (map f) rows) fs) (map (map g) rows) = map (map (fun i => map (fun f => f i) fs)) rows.
Proof.
  induction fs as [|f fs IH]; unfold stack in *; simpl.
  - rewrite map_map. apply map_ext. intros r. rewrite map_map. reflexivity.
  - rewrite IH, cells_map. reflexivity.
Qed.

Lemma mapM_Ok {A B} (f : A -> res B) (g : A -> B) l : (forall x, In x l -> f x = Ok (g x)) -> mapM f l = Ok (map g l).
Proof.
  induction l as [|a l IH]; intro H; [reflexivity|]. cbn [mapM map].
  rewrite (H a (or_introl eq_refl)). cbn [bind]. rewrite IH by (intros; apply H; right; assumption). reflexivity.
Qed.

Definition ok_param {V} (gi : list Z) (p : list Z * list V) : Prop :=
  length (fst p) = length gi /\ length (snd p) = length (uniq (fst p)).

Lemma assignvals_ok {V} gi (p : list Z * list V) d : gi <> [] -> ok_param gi p ->
  assignvals gi (fst p) (snd p) = Ok (map (map (fun i => Some (value_at d p i))) (pad (rowsets gi))).
Proof.
  intros Hg [Ld Lv]. unfold assignvals. rewrite idx_assigns_ok by auto. cbn [bind]. f_equal. unfold take2.
  apply map_ext_in. intros s Hs. apply map_ext_in. intros i Hi. apply step_values_ok; [|lia].
  apply In_nth with (d := []) in Hs. destruct Hs as (r & Hr & <-). apply In_nth with (d := 0%nat) in Hi. destruct Hi as (c & Hc & <-).
  rewrite Ld. apply pad_in; auto.
Qed.

Lemma calc_array_ok {V A} (model : list (option V) -> A -> V) gi rows ps d a0 : gi <> [] -> length rows = length gi ->
  (forall p, In p ps -> ok_param gi p) ->
  calc_array model gi rows ps =
  Ok (map (map (fun i => model (map (fun p => Some (value_at d p i)) ps) (nth i rows a0))) (pad (rowsets gi))).
Proof.
  intros Hg L H. unfold calc_array.
  rewrite (mapM_Ok _ (fun p => map (map (fun i => Some (value_at d p i))) (pad (rowsets gi))))
    by (intros p Hp; apply assignvals_ok; auto).
  cbn [bind]. rewrite (get_data_ok gi rows a0) by auto. cbn [bind]. f_equal.
  pose proof (stack_map (map (fun p i => Some (value_at d p i)) ps) (fun i => nth i rows a0) (pad (rowsets gi))) as S.
  rewrite map_map in S. rewrite S, cells_map. apply map_ext. intros r. apply map_ext. intros i. rewrite map_map. reflexivity.
Qed.

Lemma unmasked_order {X} (f : nat -> X) gi index mask : gi <> [] -> length index = length gi -> get_mask gi index = Ok mask ->
  unmasked (concat (map (map f) (pad (rowsets gi)))) mask = map f (processing_order gi).
Proof.
  intros Hg L Hm. rewrite <- concat_map, unmasked_map. f_equal.
  rewrite get_mask_ok in Hm by auto. injection Hm as <-. apply visible_pad.
Qed.

Lemma grouped_index gi index : length index = length gi ->
  concat (grouped gi index) = map (fun i => nth i index 0%Z) (processing_order gi).
Proof. intros L. rewrite (grouped_rows gi index 0%Z L), <- concat_map. reflexivity. Qed.

(** ** residuals *)
Lemma split_any {V} (ns : list nat) : forall (y : list V), length y = total ns -> exists ls, concat ls = y /\ map (@length V) ls = ns.
Proof.
  induction ns as [|n ns IH]; simpl; intros y Hy.
  - exists []. destruct y; [auto|discriminate].
  - destruct (IH (skipn n y)) as (ls & E1 & E2); [rewrite skipn_length; lia|].
    exists (firstn n y :: ls). simpl. rewrite E1, E2, firstn_skipn, firstn_length, Nat.min_l by lia. auto.
Qed.

Lemma residual_fun_ok {V A} mul sub one (model : list (option V) -> A -> V) gi index rows sig weights dyns x d a0 :
  gi <> [] -> length index = length gi -> length rows = length gi -> length sig = length gi ->
  (forall c, weights = Some c -> length c = length gi) ->
  (forall c, In c dyns -> refines gi c) ->
  length x = total (map (fun c => length (uniq c)) dyns) ->
  exists parts, concat parts = x /\ map (@length V) parts = map (fun c => length (uniq c)) dyns /\
  residual_fun mul sub one model gi index rows sig weights dyns x =
  Ok (map (fun i => mul (match weights with Some c => nth i c d | None => one end)
                        (sub (model (map (fun p => Some (value_at d p i)) (combine dyns parts)) (nth i rows a0)) (nth i sig d)))
          (processing_order gi)).
Proof.
  intros Hg Li Lr Ls Lw Hd Lx. destruct (split_any _ _ Lx) as (parts & E1 & E2). exists parts. split; [exact E1|]. split; [exact E2|].
  unfold residual_fun.
  assert (map (fun dyn => Some (Z.of_nat (nunique (dyn_df gi dyn)))) dyns =
          map (fun n => Some (Z.of_nat n)) (map (@length V) parts)) as ->.
  { rewrite E2, map_map. apply map_ext_in. intros c Hc. rewrite nunique_dyn by auto. reflexivity. }
  rewrite <- E1, split_into_parts. cbn [bind].
  assert (Hp : forall p, In p (combine dyns parts) -> ok_param gi p).
  { intros [c l] Hp. split; cbn [fst snd].
    - apply in_combine_l in Hp. symmetry. apply (Hd c Hp).
    - clear -Hp E2. revert parts E2 Hp. induction dyns as [|a dyns IH]; intros [|b parts] E2 Hp; simpl in *; try contradiction.
      injection E2 as E2 E3. destruct Hp as [Hp|Hp]; [injection Hp as <- <-; exact E2|eapply IH; eassumption]. }
  rewrite (calc_array_ok model gi rows (combine dyns parts) d a0) by auto.
  cbn [bind]. rewrite (get_data_ok gi sig d) by auto. cbn [bind].
  destruct (get_mask gi index) as [mask|] eqn:Hm; [|rewrite get_mask_ok in Hm by auto; discriminate].
  destruct weights as [c|].
  - rewrite (get_data_ok gi c d) by auto. cbn [bind]. f_equal.
    apply (residuals_ok mul sub (fun i => nth i c d) _ (fun i => nth i sig d) gi index mask Hg Li Hm).
  - cbn [bind]. rewrite (map_map (map _)).
    rewrite (map_ext _ (map (fun _ => one))) by (intros; rewrite map_map; reflexivity).
    f_equal. apply (residuals_ok mul sub (fun _ => one) _ (fun i => nth i sig d) gi index mask Hg Li Hm).
Qed.

Lemma sumR_perm l m : Permutation l m -> sumR l = sumR m.
Proof. unfold sumR. induction 1; simpl; lra. Qed.

(** ** calc_model *)
Lemma calc_model_ok {V A} (model : list (option V) -> A -> V) gi index rows ps d a0 :
  gi <> [] -> length index = length gi -> length rows = length gi -> (forall p, In p ps -> ok_param gi p) ->
  calc_model model gi index rows ps =
  Ok (map (fun i => (nth i index 0%Z, model (map (fun p => Some (value_at d p i)) ps) (nth i rows a0))) (processing_order gi)).
Proof.
  intros Hg Li Lr H. unfold calc_model. rewrite (calc_array_ok model gi rows ps d a0) by auto. cbn [bind].
  destruct (get_mask gi index) as [mask|] eqn:Hm; [|rewrite get_mask_ok in Hm by auto; discriminate]. cbn [bind].
  rewrite (unmasked_order _ gi index mask Hg Li Hm), (grouped_index gi index Li), !map_length, Nat.eqb_refl.
  rewrite combine_maps. reflexivity.
Qed.

Lemma seq_order gi : processing_order gi = seq 0 (length gi) -> contiguous gi.
Proof.
  intros E i j k [Hij Hjk] Hk Eik.
  destruct (Z.eq_dec (nth j gi 0%Z) (nth i gi 0%Z)) as [e|n]; [exact e|exfalso].
  (* split the order at the group of i: it contains i and k but not j *)
  assert (In (nth i gi 0%Z) (uniq gi)) as Hu by (apply in_uniq, nth_In; lia).
  apply in_split in Hu. destruct Hu as (u1 & u2 & Eu).
  unfold processing_order in E. rewrite Eu, map_app, concat_app in E. cbn [map concat] in E.
  set (P := concat (map (fun g => filter (fun i => Z.eqb (nth i gi 0%Z) g) (seq 0 (length gi))) u1)) in *.
  set (M := filter (fun m => Z.eqb (nth m gi 0%Z) (nth i gi 0%Z)) (seq 0 (length gi))) in *.
  set (S := concat (map (fun g => filter (fun i => Z.eqb (nth i gi 0%Z) g) (seq 0 (length gi))) u2)) in *.
  assert (In i M) as Ii by (apply filter_In; split; [apply in_seq; lia|apply Z.eqb_refl]).
  assert (In k M) as Ik by (apply filter_In; split; [apply in_seq; lia|apply Z.eqb_eq; auto]).
  assert (~ In j M) as Nj by (intro X; apply filter_In in X; destruct X as [_ X]; apply Z.eqb_eq in X; auto).
  assert (In j (P ++ M ++ S)) as Ij by (rewrite E; apply in_seq; lia).
  assert (StronglySorted lt (P ++ M ++ S)) as SS.
  { rewrite E. generalize 0%nat. clear. induction (length gi) as [|m IH]; intros s; simpl; constructor; auto.
    apply Forall_forall. intros x Hx. apply in_seq in Hx. lia. }
  assert (forall a b, StronglySorted lt (a ++ b) -> forall x y, In x a -> In y b -> (x < y)%nat) as SO.
  { induction a as [|z a IH]; intros b Hs x y Hx Hy; [destruct Hx|]. cbn [app] in Hs. inversion Hs as [|? ? Hs' Hf]; subst.
    destruct Hx as [<-|Hx]; [rewrite Forall_forall in Hf; apply Hf, in_or_app; auto|eapply IH; eauto]. }
  apply in_app_or in Ij. destruct Ij as [Ij|Ij].
  - pose proof (SO P (M ++ S) SS j i Ij (in_or_app _ _ _ (or_introl Ii))). lia.
  - apply in_app_or in Ij. destruct Ij as [Ij|Ij]; [contradiction|].
    rewrite app_assoc in SS. pose proof (SO (P ++ M) S SS k j (in_or_app _ _ _ (or_intror Ik)) Ij). lia.
Qed.

(** ** res_df *)
Lemma insert_first_keys {X} (r : Z * X) l x : In x (map fst (insert_first r l)) <-> x = fst r \/ In x (map fst l).
Proof.
  induction l as [|s l IH]; simpl; [intuition|].
  destruct (Z.ltb_spec (fst r) (fst s)); simpl; [intuition|].
  destruct (Z.eqb_spec (fst r) (fst s)) as [E|N]; simpl; [rewrite E; intuition|]. rewrite IH. intuition.
Qed.
Lemma insert_first_sorted {X} (r : Z * X) l : StronglySorted Z.lt (map fst l) -> StronglySorted Z.lt (map fst (insert_first r l)).
Proof.
  induction l as [|s l IH]; simpl; intros H; [repeat constructor|].
  inversion H as [|? ? H1 H2]; subst. rewrite Forall_forall in H2.
  destruct (Z.ltb_spec (fst r) (fst s)); simpl.
  - constructor; [exact H|]. apply Forall_forall. intros x [<-|Hx]; [lia|]. specialize (H2 x Hx). lia.
  - destruct (Z.eqb_spec (fst r) (fst s)) as [E|N]; simpl; [exact H|].
    constructor; [apply IH, H1|]. apply Forall_forall. intros x Hx. apply insert_first_keys in Hx.
    destruct Hx as [->|Hx]; [lia|apply H2, Hx].
Qed.
Lemma insert_first_in {X} (r : Z * X) l : StronglySorted Z.lt (map fst l) -> forall y, In y (insert_first r l) <->
  In y l \/ (y = r /\ ~ In (fst r) (map fst l)).
Proof.
  induction l as [|s l IH]; simpl; intros H y; [intuition|].
  inversion H as [|? ? H1 H2]; subst. rewrite Forall_forall in H2.
  destruct (Z.ltb_spec (fst r) (fst s)); simpl.
  - split; [intros [<-|X0]; [right; split; [auto|]|left; tauto]|intros [X0|[-> _]]; tauto].
    intros [E|I]; [lia|]. specialize (H2 _ I). lia.
  - destruct (Z.eqb_spec (fst r) (fst s)) as [E|N]; simpl.
    + split; [tauto|]. intros [X0|[_ X0]]; [exact X0|]. exfalso. apply X0. left. auto.
    + rewrite IH by auto. split; [intros [X0|[X0|[X0 X1]]]; [tauto|tauto|right; split; [auto|]; intros [X2|X2]; [congruence|tauto]]|].
      intros [[X0|X0]|[X0 X1]]; [tauto|tauto|right; right; split; [auto|]; tauto].
Qed.

Lemma groupby_first_spec {X} (rows : list (Z * X)) : StronglySorted Z.lt (map fst (groupby_first rows)) /\
  (forall t, In t (map fst (groupby_first rows)) <-> In t (map fst rows)) /\
  (forall y, In y (groupby_first rows) -> exists a b, rows = a ++ y :: b /\ ~ In (fst y) (map fst a)).
Proof.
  induction rows as [|r l [S [K F]]] using rev_ind.
  - split; [constructor|]. split; [tauto|intros y []].
  - unfold groupby_first in *. rewrite fold_left_app. cbn [fold_left].
    set (g := fold_left (fun acc r => insert_first r acc) l []) in *.
    split; [apply insert_first_sorted, S|]. split.
    + intros t. rewrite insert_first_keys, K, map_app, in_app_iff. simpl. intuition.
    + intros y Hy. apply insert_first_in in Hy; [|exact S]. destruct Hy as [Hy|[-> N]].
      * destruct (F y Hy) as (a & b & E & N). exists a, (b ++ [r]). rewrite E, <- app_assoc. auto.
      * exists l, []. split; [reflexivity|]. rewrite <- K. exact N.
Qed.

Lemma sorted_lt_unique : forall l m, StronglySorted Z.lt l -> StronglySorted Z.lt m -> (forall x, In x l <-> In x m) -> l = m.
Proof.
  assert (forall l, StronglySorted Z.lt l -> sorted l) as W.
  { induction 1; constructor; auto. eapply Forall_impl; [|eassumption]. simpl. intros; lia. }
  assert (forall l, StronglySorted Z.lt l -> NoDup l) as N.
  { induction 1 as [|a l H IH F]; constructor; auto. intro I. rewrite Forall_forall in F. specialize (F a I). lia. }
  intros l m Hl Hm H. apply sorted_perm_eq; auto. apply NoDup_Permutation; auto.
Qed.

Lemma uniq_sorted_lt l : sorted l -> StronglySorted Z.lt (uniq l).
Proof.
  intros H. pose proof (sorted_uniq l H) as S. pose proof (NoDup_uniq l) as N.
  induction (uniq l) as [|a u IH]; [constructor|]. inversion S as [|? ? S1 F]; subst. inversion N as [|? ? N1 N2]; subst.
  constructor; [apply IH; auto|]. apply Forall_forall. intros x Hx. rewrite Forall_forall in F. specialize (F x Hx).
  assert (x <> a) by (intros ->; contradiction). lia.
Qed.

Lemma res_df_ok {V} gi index (p : list Z * list V) d : gi <> [] -> length index = length gi -> ok_param gi p -> sorted index ->
  exists df, res_df gi index (fst p) (snd p) = Ok df /\ map fst df = uniq index /\
    forall t v, In (t, v) df -> exists i, first_of_date gi index t i /\ v = Some (value_at d p i).
Proof.
  intros Hg Li Hp Hs. unfold res_df. rewrite (assignvals_ok gi p d) by auto. cbn [bind].
  destruct (get_mask gi index) as [mask|] eqn:Hm; [|rewrite get_mask_ok in Hm by auto; discriminate]. cbn [bind].
  rewrite (unmasked_order _ gi index mask Hg Li Hm), (grouped_index gi index Li), !map_length, Nat.eqb_refl, combine_maps.
  destruct (groupby_first_spec (map (fun i => (nth i index 0%Z, Some (value_at d p i))) (processing_order gi))) as (S & K & F).
  eexists; split; [reflexivity|]. split.
  - apply sorted_lt_unique; [exact S|apply uniq_sorted_lt, Hs|]. intros x. rewrite K, in_uniq, map_map. cbn [fst].
    rewrite in_map_iff. split.
    + intros (i & <- & Hi). apply nth_In. rewrite Li. apply (Permutation_in _ (processing_order_perm gi)) in Hi. apply in_seq in Hi. lia.
    + intros Hx. apply In_nth with (d := 0%Z) in Hx. destruct Hx as (i & Hi & E). exists i. split; [exact E|].
      apply (Permutation_in _ (Permutation_sym (processing_order_perm gi))). apply in_seq. lia.
  - intros t v Hy. destruct (F _ Hy) as (a & b & E & N). cbn [fst] in N.
    apply map_eq_app in E. destruct E as (a' & b' & E & Ea & Eb). destruct b' as [|i b']; [discriminate|]. cbn [map] in Eb.
    injection Eb as Et Ev Eb. exists i. split; [|auto]. exists a', b'. split; [exact E|]. split; [exact Et|].
    intros j Hj C. apply N. rewrite <- Ea, map_map. apply in_map_iff. exists j. cbn [fst]. auto.
Qed.
