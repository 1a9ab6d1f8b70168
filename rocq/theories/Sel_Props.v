(** Selectors of tables (C183) and the accessor behind them (C184) *)
From Coq Require Import String List ZArith Bool Sorted Lia.
From Verif Require Import Base Base_Proofs Pag_Model Pag_Proofs Sel_Model Sel_Spec.
Import ListNotations.
Open Scope Z_scope.

Section S.
Context {V : Type}.
Notation row := (Z * V)%type.

Lemma lv_in (rows : list row) n : In n (levels0 rows) <-> occurs rows n.
Proof.
  unfold levels0, occurs. induction rows as [|[m v] rows IH]; cbn; [firstorder|]. rewrite insert_in. rewrite IH. split.
  - intros [->|[w I]]; [exists v; auto|exists w; auto].
  - intros [w [E|I]]; [injection E as -> ->; auto|right; exists w; exact I].
Qed.
Lemma lv_nodup (rows : list row) : NoDup (levels0 rows).
Proof.
  assert (S : StronglySorted Z.lt (levels0 rows)) by (unfold levels0; induction rows; cbn; [constructor|apply insert_sorted; assumption]).
  induction S as [|a l S IH F]; constructor; auto. intros I. rewrite Forall_forall in F. specialize (F a I). lia.
Qed.
Lemma code_nth n ls : In n ls -> nth_error ls (code n ls) = Some n.
Proof. induction ls as [|x ls IH]; [intros []|]. intros I. cbn. destruct (Z.eqb_spec n x) as [->|N]; [reflexivity|]. destruct I as [->|I]; [contradiction|]. auto. Qed.
Lemma distinct_iff l : distinct l = true <-> NoDup l.
Proof.
  induction l as [|x l IH]; cbn; [split; [constructor|reflexivity]|]. rewrite andb_true_iff, IH, negb_true_iff. split.
  - intros [A B]. constructor; auto. intros I. apply (inb_iff string_dec) in I. congruence.
  - intros N. inversion N as [|? ? N1 N2]; subst. split; auto. destruct (inb string_dec x l) eqn:E; [|reflexivity]. apply inb_iff in E. contradiction.
Qed.
Lemma dget_in (names : list (Z * string)) n s : NoDup (map fst names) -> (dget Z.eq_dec n names = Some s <-> In (n, s) names).
Proof.
  induction names as [|[m t] names IH]; cbn; intros ND; [split; [discriminate|intros []]|]. inversion ND as [|? ? N1 N2]; subst.
  destruct (Z.eq_dec n m) as [->|N].
  - split; [intros E; injection E as ->; auto|]. intros [E|I]; [injection E as ->; reflexivity|]. elim N1. apply (in_map fst) in I. exact I.
  - rewrite IH by exact N2. split; [auto|]. intros [E|I]; [congruence|exact I].
Qed.
Lemma names_ok names ns : NoDup (map fst names) -> (forall n, In n ns -> exists s, stands_for names n s) ->
  exists new, names_of names ns = Ok new /\ Forall2 (stands_for names) ns new.
Proof.
  intros ND. unfold names_of. induction ns as [|n ns IH]; intros H; [exists []; split; [reflexivity|constructor]|].
  destruct (H n (or_introl eq_refl)) as [s S]. destruct IH as (new & E & F); [intros m M; apply H; right; exact M|].
  exists (s :: new). cbn. unfold stands_for in S. rewrite (proj2 (dget_in names n s ND) S). cbn. rewrite E. split; [reflexivity|constructor; assumption].
Qed.
Lemma names_err names ns n : NoDup (map fst names) -> In n ns -> (forall s, ~ stands_for names n s) -> names_of names ns = Err KeyError.
Proof.
  intros ND. unfold names_of. induction ns as [|m ns IH]; intros I N; [destruct I|]. cbn.
  destruct I as [->|I].
  - destruct (dget Z.eq_dec n names) as [s|] eqn:E; [|reflexivity]. apply (dget_in names n s ND) in E. elim (N s E).
  - destruct (dget Z.eq_dec m names) as [s|]; [|reflexivity]. cbn. rewrite IH by assumption. reflexivity.
Qed.
Lemma F2_nth {A B} (R : A -> B -> Prop) l m k a : Forall2 R l m -> nth_error l k = Some a -> exists b, nth_error m k = Some b /\ R a b.
Proof. intros F. revert k. induction F as [|x y l m H F IH]; intros [|k] E; cbn in *; try discriminate; [injection E as ->; eauto|eauto]. Qed.
Lemma F2_in {A B} (R : A -> B -> Prop) l m b : Forall2 R l m -> In b m -> exists a, In a l /\ R a b.
Proof. induction 1 as [|x y l m H F IH]; [intros []|]. intros [->|I]; [exists x; cbn; auto|destruct (IH I) as (a & A1 & A2); exists a; cbn; auto]. Qed.

(** With set_ID=False select returns the rows of the condition, in their order, with the numbers of the IDs. *)
Theorem C183_numbers : forall multi IDs (tbl : list row) where_,
  select multi false IDs tbl where_ = Ok (map (fun r => (Num (fst r), snd r)) (filter where_ tbl)).
Proof. reflexivity. Qed.

(** With set_ID=True each of these rows is shown with the name of its ID, if the IDs of the rows have names that tell them apart. *)
Theorem C183_names : forall multi names (tbl : list row) where_, NoDup (map fst names) ->
  (forall n, occurs (filter where_ tbl) n -> exists s, stands_for names n s) ->
  (multi = true -> told_apart names (filter where_ tbl)) ->
  exists out, select multi true (Some names) tbl where_ = Ok out /\ Forall2 (shows names) (filter where_ tbl) out.
Proof.
  intros multi names tbl where_ ND H T. unfold select, srow. cbv zeta. set (rows := filter where_ tbl) in *. clearbody rows. destruct multi.
  - specialize (T eq_refl). destruct (names_ok names (levels0 rows) ND) as (new & E & F); [intros n N; apply H; apply lv_in, N|]. rewrite E. cbn [bind].
    unfold set_levels. assert (D : NoDup new).
    { assert (L := lv_nodup rows). assert (I : forall n, In n (levels0 rows) -> occurs rows n) by (intros n; apply lv_in). revert L I. clear - T F.
      generalize (levels0 rows) F. clear F. intros ls F. induction F as [|n s ls new S F IH]; intros L I; [constructor|]. inversion L as [|? ? L1 L2]; subst. constructor.
      - intros J. destruct (F2_in _ _ _ _ F J) as (m & M1 & M2). apply L1. rewrite (T n m s); [exact M1| | |exact S|exact M2]; apply I; cbn; auto.
      - apply IH; [exact L2|intros m M; apply I; right; exact M]. }
    rewrite (proj2 (distinct_iff new) D). cbn [negb].
    assert (G : forall l, (forall r, In r l -> In (fst r) (levels0 rows)) ->
      exists out, mapM (fun r : row => match nth_error new (code (fst r) (levels0 rows)) with Some s => Ok (Name s, snd r) | None => Err IndexError end) l = Ok out /\ Forall2 (shows names) l out).
    { induction l as [|r l IH]; intros I; [exists []; split; [reflexivity|constructor]|].
      destruct IH as (out & E1 & E2); [intros q Q; apply I; right; exact Q|].
      destruct (F2_nth _ _ _ _ _ F (code_nth _ _ (I r (or_introl eq_refl)))) as (s & S1 & S2).
      exists ((Name s, snd r) :: out). cbn. rewrite S1. cbn. rewrite E1. split; [reflexivity|]. constructor; [exists s; auto|exact E2]. }
    apply G. intros [n v] R. apply lv_in. exists v. exact R.
  - destruct (names_ok names (map fst rows) ND) as (new & E & F).
    { intros n N. apply in_map_iff in N. destruct N as ([m v] & <- & I). apply H. exists v. exact I. }
    rewrite E. cbn [bind]. eexists. split; [reflexivity|]. clear - F. revert new F. induction rows as [|[n v] rows IH]; intros new F; inversion F as [|? s ? ? S F']; subst; cbn; constructor; [exists s; auto|auto].
Qed.

(** Two IDs of the rows with the same name (e.g. "7" and "RT1_7"): a ValueError for tables with MultiIndex. *)
Theorem C183_same_refuted : forall names (tbl : list row) where_ n m s, NoDup (map fst names) ->
  (forall n, occurs (filter where_ tbl) n -> exists s, stands_for names n s) ->
  occurs (filter where_ tbl) n -> occurs (filter where_ tbl) m -> n <> m -> stands_for names n s -> stands_for names m s ->
  select true true (Some names) tbl where_ = Err ValueError.
Proof.
  intros names tbl where_ n m s ND H On Om N Sn Sm. unfold select, srow. cbv zeta. set (rows := filter where_ tbl) in *. clearbody rows.
  destruct (names_ok names (levels0 rows) ND) as (new & E & F); [intros k K; apply H; apply lv_in, K|]. rewrite E. cbn [bind]. unfold set_levels.
  destruct (distinct new) eqn:D; [|reflexivity]. apply distinct_iff in D. exfalso.
  assert (In1 : In n (levels0 rows)) by (apply lv_in, On). assert (In2 : In m (levels0 rows)) by (apply lv_in, Om).
  assert (U : forall k s1 s2, stands_for names k s1 -> stands_for names k s2 -> s1 = s2).
  { intros k s1 s2 A B. unfold stands_for in *. apply (dget_in names k s1 ND) in A. apply (dget_in names k s2 ND) in B. congruence. }
  apply In_nth_error in In1. destruct In1 as [i I]. apply In_nth_error in In2. destruct In2 as [j J].
  destruct (F2_nth _ _ _ _ _ F I) as (s1 & A1 & A2). destruct (F2_nth _ _ _ _ _ F J) as (s2 & B1 & B2).
  rewrite (U _ _ _ A2 Sn) in A1. rewrite (U _ _ _ B2 Sm) in B1. assert (i = j).
  { apply (proj1 (NoDup_nth_error new) D); [apply nth_error_Some; congruence|congruence]. }
  subst j. congruence.
Qed.

(** An ID of the rows without name: a KeyError. No table "reader_arg": an AttributeError. *)
Theorem C183_missing : forall multi names (tbl : list row) where_ n, NoDup (map fst names) ->
  occurs (filter where_ tbl) n -> (forall s, ~ stands_for names n s) -> select multi true (Some names) tbl where_ = Err KeyError.
Proof.
  intros multi names tbl where_ n ND O N. unfold select, srow. cbv zeta. destruct multi.
  - rewrite (names_err names _ n ND); [reflexivity|apply lv_in, O|exact N].
  - rewrite (names_err names _ n ND); [reflexivity| |exact N]. destruct O as [v O]. apply (in_map fst) in O. exact O.
Qed.
Theorem C183_no_IDs : forall multi (tbl : list row) where_, select multi true None tbl where_ = Err AttributeError.
Proof. reflexivity. Qed.
End S.
Print Assumptions C183_numbers.
Print Assumptions C183_names.
Print Assumptions C183_same_refuted.
Print Assumptions C183_missing.
Print Assumptions C183_no_IDs.

Open Scope string_scope.
Example C183_example :
  select true true (Some [(0, "RT1_7"); (1, "b"); (2, "a")]) [(2, "x"); (0, "y"); (2, "z"); (1, "w")] (fun r => negb (Z.eqb (fst r) 1)) =
    Ok [(Name "a", "x"); (Name "RT1_7", "y"); (Name "a", "z")] /\
  select false true (Some [(0, "b"); (2, "a")]) [(2, "x"); (0, "y")] (fun _ => true) = Ok [(Name "a", "x"); (Name "b", "y")] /\
  select true true (Some [(0, "RT1_7"); (1, "RT1_7")]) [(0, "x"); (1, "y")] (fun _ => true) = Err ValueError.
Proof. repeat split. Qed.

(** ** C184 *)
Lemma after_init i l : a_init (after i l) = i.
Proof. unfold after. induction l as [|o l IH] using rev_ind; [reflexivity|]. rewrite fold_left_app. cbn. destruct o; cbn; auto; [destruct (a_init _) eqn:E; cbn; congruence|destruct (a_held _); cbn; congruence]. Qed.
Lemma after_held i l : a_held (after i l) = true <-> ~ In Drop l.
Proof.
  unfold after. induction l as [|o l IH] using rev_ind; [cbn; tauto|]. rewrite fold_left_app, in_app_iff. cbn. set (a := fold_left astep l (open_acc i)) in *.
  destruct o; cbn.
  - destruct (a_init a); cbn; split; try discriminate; tauto.
  - destruct (a_held a) eqn:E; cbn; [rewrite E|]; split; intros X; try discriminate; try reflexivity.
    + intros [Y|[Y|[]]]; [apply (proj1 IH eq_refl Y)|discriminate].
    + assert (~ In Drop l) by tauto. apply IH in H. discriminate.
  - rewrite IH. split; [intros A [B|[B|[]]]; [tauto|discriminate]|tauto].
  - rewrite IH. split; [intros A [B|[B|[]]]; [tauto|discriminate]|tauto].
Qed.
(** the object is gone iff it was dropped and nothing kept it, or it was collected later *)
Lemma after_gone i l : a_gone (after i l) = true <-> In Drop l /\ (i = true -> exists a b, l = (a ++ Drop :: b)%list /\ In Gc b).
Proof.
  induction l as [|o l IH] using rev_ind; [cbn; split; [discriminate|tauto]|].
  assert (E : after i (l ++ [o])%list = astep (after i l) o) by (unfold after; rewrite fold_left_app; reflexivity). rewrite E. clear E. rewrite in_app_iff.
  assert (H := after_held i l). assert (I := after_init i l).
  assert (Ext : (exists a b, l = (a ++ Drop :: b)%list /\ In Gc b) -> exists a b, (l ++ [o])%list = (a ++ Drop :: b)%list /\ In Gc b).
  { intros (a & b & -> & G). exists a, (b ++ [o])%list. rewrite <- app_assoc. split; [reflexivity|apply in_app_iff; auto]. }
  assert (Red : o <> Gc -> (exists a b, (l ++ [o])%list = (a ++ Drop :: b)%list /\ In Gc b) -> exists a b, l = (a ++ Drop :: b)%list /\ In Gc b).
  { intros N (a & b & Q & G). destruct b as [|b0 b] using rev_ind; [destruct G|]. clear IHb. change (a ++ Drop :: b ++ [b0])%list with (a ++ (Drop :: b) ++ [b0])%list in Q. rewrite app_assoc in Q. apply app_inj_tail in Q.
    destruct Q as [-> <-]. exists a, b. split; [reflexivity|]. apply in_app_iff in G. destruct G as [G|[G|[]]]; [exact G|congruence]. }
  destruct o; cbn [astep].
  - destruct (a_init (after i l)) eqn:A; cbn [a_gone delete].
    + rewrite IH. split.
      * intros [X Y]. split; [auto|]. intros J. apply Ext, Y, J.
      * intros [_ Y]. assert (J : i = true) by congruence. specialize (Red ltac:(discriminate) (Y J)). split; [|auto]. destruct Red as (a & b & -> & _). apply in_app_iff. cbn. auto.
    + split; [|reflexivity]. intros _. split; [cbn; auto|]. congruence.
  - destruct (a_held (after i l)) eqn:A.
    + assert (N := proj1 H eq_refl). rewrite IH. split; [tauto|]. intros [[X|[X|[]]] _]; [tauto|discriminate].
    + split; [|reflexivity]. intros _. assert (D : In Drop l) by (destruct (in_dec (fun x y : aop => ltac:(decide equality) : {x = y} + {x <> y}) Drop l) as [D|D]; [exact D|apply H in D; discriminate]).
      split; [auto|]. intros _. apply in_split in D. destruct D as (a & b & ->). exists a, (b ++ [Gc])%list. rewrite <- app_assoc. split; [reflexivity|]. apply in_app_iff. cbn. auto.
  - cbn [a_gone]. rewrite IH. split; [intros [X Y]; split; [auto|intros J; apply Ext, Y, J]|]. intros [[X|[X|[]]] Y]; [|discriminate]. split; [exact X|]. intros J. apply Red; [discriminate|auto].
  - rewrite IH. split; [intros [X Y]; split; [auto|intros J; apply Ext, Y, J]|]. intros [[X|[X|[]]] Y]; [|discriminate]. split; [exact X|]. intros J. apply Red; [discriminate|auto].
Qed.
Lemma after_closed i l : a_gone (after i l) = false -> (a_closed (after i l) = true <-> In Close l).
Proof.
  induction l as [|o l IH] using rev_ind; [cbn; split; [discriminate|tauto]|].
  assert (E : after i (l ++ [o])%list = astep (after i l) o) by (unfold after; rewrite fold_left_app; reflexivity). rewrite E. clear E. rewrite in_app_iff.
  destruct o; cbn [astep].
  - destruct (a_init _); cbn [a_gone a_closed delete]; [|discriminate]. intros G. rewrite (IH G). cbn. intuition discriminate.
  - destruct (a_held _); cbn [a_gone delete]; [|discriminate]. intros G. rewrite (IH G). cbn. intuition discriminate.
  - cbn. tauto.
  - intros G. rewrite (IH G). cbn. intuition discriminate.
Qed.

(** As long as the accessor is held and not closed a selector can be used. *)
Theorem C184_held : forall init l, ~ In Drop l -> ~ In Close l -> use (after init l) = Ok tt.
Proof.
  intros i l D C. unfold use. destruct (a_gone (after i l)) eqn:G; [apply after_gone in G; tauto|].
  destruct (a_closed (after i l)) eqn:X; [apply (after_closed i l G) in X; contradiction|reflexivity].
Qed.
Print Assumptions C184_held.

(** Holding the selector is not enough: without the accessor every use fails if the container has no table "init_dict" ... *)
Theorem C184_chain_refuted : forall l l', use (after false (l ++ Drop :: l')) = Err AttributeError.
Proof.
  intros l l'. unfold use. replace (a_gone _) with true; [reflexivity|]. symmetry. apply after_gone. split; [apply in_app_iff; cbn; auto|discriminate].
Qed.
Print Assumptions C184_chain_refuted.

(** ... and if it has one, it depends on the garbage collector. *)
Theorem C184_collector_refuted : forall l l', ~ In Drop l -> ~ In Close l -> ~ In Close l' ->
  (~ In Gc l' -> use (after true (l ++ Drop :: l')) = Ok tt) /\ (In Gc l' -> use (after true (l ++ Drop :: l')) = Err AttributeError).
Proof.
  intros l l' D C C'. split; intros H; unfold use.
  - destruct (a_gone (after true (l ++ Drop :: l')%list)) eqn:G.
    + apply after_gone in G. destruct G as [_ G]. destruct (G eq_refl) as (a & b & E & I). exfalso. apply H.
      assert (P : exists a', a = (l ++ a')%list).
      { clear - D E. revert a E. induction l as [|x l IH]; intros a E; [exists a; reflexivity|]. destruct a as [|y a]; cbn in E; injection E as E1 E2.
        - elim D. left. exact E1.
        - destruct (IH (fun X => D (or_intror X)) a E2) as [a' ->]. exists a'. cbn. congruence. }
      destruct P as [a' ->]. rewrite <- app_assoc in E. apply app_inv_head in E. destruct a' as [|y a']; cbn in E; [injection E as ->; exact I|]. injection E as _ ->. apply in_app_iff. cbn. auto.
    + destruct (a_closed (after true (l ++ Drop :: l')%list)) eqn:X; [|reflexivity]. apply (after_closed _ _ G) in X. apply in_app_iff in X. destruct X as [X|[X|X]]; [tauto|discriminate|tauto].
  - replace (a_gone _) with true; [reflexivity|]. symmetry. apply after_gone. split; [apply in_app_iff; cbn; auto|]. intros _. exists l, l'. auto.
Qed.
Print Assumptions C184_collector_refuted.

(** The exact condition for a use. *)
Theorem C184_iff : forall init l, use (after init l) = Ok tt <->
  ~ In Close l /\ (In Drop l -> init = true /\ forall a b, l = (a ++ Drop :: b)%list -> ~ In Gc b).
Proof.
  intros i l. unfold use. assert (G := after_gone i l). assert (C := after_closed i l). destruct (a_gone (after i l)).
  - split; [discriminate|]. intros [N H]. destruct (proj1 G eq_refl) as [D E]. destruct (H D) as [J F]. destruct (E J) as (a & b & X & Y). elim (F a b X Y).
  - specialize (C eq_refl). destruct (a_closed (after i l)).
    + split; [discriminate|]. intros [N _]. elim N. apply C. reflexivity.
    + split; [|reflexivity]. intros _. split; [intros X; apply C in X; discriminate|]. intros D. destruct i.
      * split; [reflexivity|]. intros a b X Y. enough (false = true) by discriminate. apply G. split; [exact D|]. intros _. eauto.
      * enough (false = true) by discriminate. apply G. split; [exact D|discriminate].
Qed.
Print Assumptions C184_iff.

(** fit.load_hdf("x").datasets.res.select() of a container without fits: the accessor is gone before select is called *)
Example C184_example : uses (open_acc false) [Use; Drop; Use] = [Ok tt; Err AttributeError] /\
  uses (open_acc true) [Use; Drop; Use; Gc; Use] = [Ok tt; Ok tt; Err AttributeError] /\ uses (open_acc true) [Use; Gc; Use; Close; Use] = [Ok tt; Ok tt; Err RuntimeError].
Proof. repeat split. Qed.

(** The results of the uses in a session are those of the states in which they happen. *)
Theorem C184_session : forall l init k r, nth_error (uses (open_acc init) l) k = Some r ->
  exists l1 l2, l = (l1 ++ Use :: l2)%list /\ count_occ (fun x y : aop => ltac:(decide equality) : {x = y} + {x <> y}) l1 Use = k /\ r = use (after init l1).
Proof.
  intros l init k r. unfold after. generalize (open_acc init) as a. revert k. induction l as [|o l IH]; intros k a H; [destruct k; discriminate|].
  assert (X : o = Use \/ o <> Use) by (destruct o; auto; right; discriminate). destruct X as [->|N].
  - destruct k as [|k]; cbn in H.
    + injection H as <-. exists [], l. repeat split.
    + destruct (IH k a H) as (l1 & l2 & -> & C & R). exists (Use :: l1), l2. repeat split; [|exact R]. rewrite count_occ_cons_eq by reflexivity. congruence.
  - assert (U : uses a (o :: l) = uses (astep a o) l) by (destruct o; try reflexivity; contradiction). rewrite U in H.
    destruct (IH k _ H) as (l1 & l2 & -> & C & R). exists (o :: l1), l2. repeat split; [|exact R]. rewrite count_occ_cons_neq by exact N. exact C.
Qed.
Print Assumptions C184_session.
