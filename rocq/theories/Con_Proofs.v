(** Lemmas for the defdict container. *)
From Coq Require Import List Arith ZArith QArith Bool String Lia Sorted.
From Verif Require Import Base Base_Proofs Con_Model Con_Spec.
Import ListNotations.
Open Scope string_scope.

Definition wf (d : defdict) : Prop :=
  NoDup (d_variables d) /\ NoDup (keys (d_vars d)) /\
  forall x, In x (d_variables d) <-> In x (keys (d_vars d)).

Lemma wf_new : wf new_defdict.
Proof. split; [constructor|]. split; [constructor|]. simpl. tauto. Qed.

Lemma remove_first_in x y l : NoDup l -> (In y (remove_first x l) <-> y <> x /\ In y l).
Proof.
  induction l as [|a l IH]; simpl; [tauto|]. intros H. inversion H as [|? ? Ha Hl]; subst.
  destruct (string_dec x a) as [->|E].
  - split; [intros Hy; split; [intros ->; tauto|tauto]|]. intros [Hn [->|Hy]]; [tauto|exact Hy].
  - simpl. rewrite (IH Hl). split; [intros [->|[? ?]]; auto|].
    + intros [? [->|?]]; auto.
Qed.

Lemma remove_first_nodup x l : NoDup l -> NoDup (remove_first x l).
Proof.
  induction l as [|a l IH]; simpl; [auto|]. intros H. inversion H as [|? ? Ha Hl]; subst.
  destruct (string_dec x a) as [->|E]; [exact Hl|].
  constructor; [|auto]. rewrite remove_first_in by auto. tauto.
Qed.

Lemma wf_add n p d : wf d -> wf (add_variable n p d).
Proof.
  intros (H1 & H2 & H3). unfold wf, add_variable; simpl. split; [|split].
  - destruct (inb string_dec n (d_variables d)) eqn:E; [auto|].
    apply inb_false in E. apply NoDup_app_single; auto.
  - apply NoDup_keys_dset; auto.
  - intros x. rewrite in_keys_dset. destruct (inb string_dec n (d_variables d)) eqn:E.
    + apply inb_iff in E. rewrite H3. split; [auto|]. intros [->|]; [apply H3; auto|auto].
    + rewrite in_app_iff, H3. simpl. firstorder congruence.
Qed.

Lemma wf_put n x d : wf d -> dmem string_dec n (d_vars d) = true -> wf (put_var n x d).
Proof.
  intros (H1 & H2 & H3) Hm. unfold wf, put_var; simpl. split; [auto|]. split.
  - apply NoDup_keys_dset; auto.
  - intros y. rewrite in_keys_dset, H3. split; [auto|]. intros [->|]; [|auto].
    apply (dget_in_keys string_dec). unfold dmem in Hm. destruct (dget string_dec n (d_vars d)); congruence.
Qed.

Lemma dmem_in (n : string) (d : dict string variable) : dmem string_dec n d = true <-> In n (keys d).
Proof.
  unfold dmem. rewrite (dget_in_keys string_dec). destruct (dget string_dec n d); split; congruence.
Qed.

Lemma remove_wf n d : wf d ->
  remove_variable n d =
    if inb string_dec n (d_variables d)
    then (mkdd (remove_first n (d_variables d)) (ddel string_dec n (d_vars d)) (d_attrs d), None)
    else (d, Some AttributeError).
Proof.
  intros (H1 & H2 & H3). unfold remove_variable.
  destruct (inb string_dec n (d_variables d)) eqn:E.
  - apply inb_iff in E. apply H3 in E. apply dmem_in in E. rewrite E. reflexivity.
  - apply inb_false in E. destruct (dmem string_dec n (d_vars d)) eqn:F.
    + apply dmem_in in F. apply H3 in F. tauto.
    + destruct d; reflexivity.
Qed.

Lemma getitem_ok n d x : getitem n d = Ok x -> dmem string_dec n (d_vars d) = true.
Proof. unfold getitem, dmem. destruct (dget string_dec n (d_vars d)); congruence. Qed.

Lemma getitem_dmem n d : dmem string_dec n (d_vars d) = true -> exists x, getitem n d = Ok x.
Proof. unfold getitem, dmem. destruct (dget string_dec n (d_vars d)); [eauto|discriminate]. Qed.

Lemma wf_modify n f d : wf d -> wf (fst (modify n f d)).
Proof.
  intros H. unfold modify. destruct (getitem n d) eqn:E; [|exact H].
  destruct (f a); [|exact H]. apply wf_put; [exact H|]. eapply getitem_ok; eauto.
Qed.

Lemma wf_step o d : wf d -> wf (fst (step o d)).
Proof.
  intros H. destruct o; simpl; try (apply wf_modify; exact H).
  - destruct (bind_args pos kw); [apply wf_add|]; exact H.
  - rewrite remove_wf by exact H. destruct (inb string_dec name (d_variables d)) eqn:E; [|exact H].
    destruct H as (H1 & H2 & H3). split; [|split]; simpl.
    + apply remove_first_nodup; auto.
    + rewrite keys_ddel by auto. clear - H2. induction (keys (d_vars d)) as [|a l IH]; simpl; [constructor|].
      inversion H2; subst. destruct (string_dec name a); [auto|].
      constructor; [|auto]. intros Hi. apply in_remove in Hi. tauto.
    + intros x. rewrite remove_first_in by auto. rewrite keys_ddel by auto. rewrite H3.
      split; [intros [? ?]; apply in_in_remove; auto|].
      intros Hi. apply in_remove in Hi. tauto.
  - unfold setattr_defdict.
    destruct (negb (starts_underscore name) && negb (inb string_dec name (d_variables d))).
    + destruct v; try exact H.
      * destruct (bind_pos paramnames l default_props); [apply wf_add|]; exact H.
      * destruct (bind_kw d0 default_props); [apply wf_add|]; exact H.
    + destruct (String.eqb name "var"); [exact H|]. destruct H as (H1 & H2 & H3). split; [exact H1|split; auto].
Qed.

Lemma from_dict_step_wf k v d d' : wf d -> from_dict_step k v d = Ok d' -> wf d'.
Proof.
  intros H. unfold from_dict_step. assert (Ha := wf_add k default_props d H).
  destruct v; try (intros E; inversion E; subst; exact Ha).
  - destruct (getitem k (add_variable k default_props d)) eqn:E; simpl; [|discriminate].
    destruct (from_list l a); simpl; [|discriminate]. intros Q; inversion Q; subst.
    apply wf_put; [exact Ha|]. eapply getitem_ok; eauto.
  - destruct (getitem k (add_variable k default_props d)) eqn:E; simpl; [|discriminate].
    destruct (from_dict_var d0 a); simpl; [|discriminate]. intros Q; inversion Q; subst.
    apply wf_put; [exact Ha|]. eapply getitem_ok; eauto.
Qed.

Lemma from_dict_loop_wf items : forall d d', wf d -> from_dict_loop items d = Ok d' -> wf d'.
Proof.
  induction items as [|[k v] r IH]; simpl; intros d d' H E; [inversion E; subst; exact H|].
  destruct (from_dict_step k v d) eqn:F; simpl in E; [|discriminate].
  eapply IH; [|exact E]. eapply from_dict_step_wf; eauto.
Qed.

Lemma reachable_wf d : reachable d -> wf d.
Proof.
  induction 1 as [|items d Hn E|d o H IH]; [apply wf_new| |apply wf_step; exact IH].
  eapply from_dict_loop_wf; [apply wf_new|exact E].
Qed.

(** ** to_dict / from_dict *)
Lemma getitem_add_same n p d :
  getitem n (add_variable n p d) =
  Ok (mkvar (VStr n) (p_fitQ p) (p_val p) (p_freq p) (p_minval p) (p_maxval p) (p_interpQ p) []).
Proof. unfold getitem, add_variable; simpl. rewrite dget_dset_same. reflexivity. Qed.

Lemma getitem_add_other n m p d : m <> n -> getitem m (add_variable n p d) = getitem m d.
Proof. intros H. unfold getitem, add_variable; simpl. rewrite dget_dset_other by exact H. reflexivity. Qed.

Lemma getitem_put_same n x d : getitem n (put_var n x d) = Ok x.
Proof. unfold getitem, put_var; simpl. rewrite dget_dset_same. reflexivity. Qed.

Lemma getitem_put_other n m x d : m <> n -> getitem m (put_var n x d) = getitem m d.
Proof. intros H. unfold getitem, put_var; simpl. rewrite dget_dset_other by exact H. reflexivity. Qed.

Lemma from_list_to_list x y :
  from_list (to_list x) y =
  Ok (mkvar (v_name y) (v_fitQ x) (v_val x) (v_freq x) (v_minval x) (v_maxval x) (v_interpQ x) (v_extra y)).
Proof. reflexivity. Qed.

Lemma from_dict_step_keys k v d d' : from_dict_step k v d = Ok d' ->
  d_variables d' = d_variables (add_variable k default_props d).
Proof.
  unfold from_dict_step. set (d1 := add_variable k default_props d).
  destruct v; try (intros E; inversion E; subst; reflexivity).
  - destruct (getitem k d1); simpl; [|discriminate]. destruct (from_list l a); simpl; [|discriminate].
    intros Q; inversion Q; reflexivity.
  - destruct (getitem k d1); simpl; [|discriminate]. destruct (from_dict_var d0 a); simpl; [|discriminate].
    intros Q; inversion Q; reflexivity.
Qed.

Lemma from_dict_step_other k v d d' m : m <> k -> from_dict_step k v d = Ok d' -> getitem m d' = getitem m d.
Proof.
  intros Hm. unfold from_dict_step. rewrite <- (getitem_add_other k m default_props d Hm).
  set (d1 := add_variable k default_props d).
  destruct v; try (intros E; inversion E; subst; reflexivity).
  - destruct (getitem k d1); simpl; [|discriminate]. destruct (from_list l a); simpl; [|discriminate].
    intros Q; inversion Q. apply getitem_put_other; exact Hm.
  - destruct (getitem k d1); simpl; [|discriminate]. destruct (from_dict_var d0 a); simpl; [|discriminate].
    intros Q; inversion Q. apply getitem_put_other; exact Hm.
Qed.

(** the definition that from_dict gives to one entry, independent of the rest *)
Definition entry_var (k : string) (v : val) : res variable :=
  let x := mkvar (VStr k) (VBool true) (VNum (1#2)) VNone (VNum 0) (VNum 1) (VBool false) [] in
  match v with
  | VList l => from_list l x
  | VDict kw => from_dict_var kw x
  | _ => Ok x
  end.

Lemma from_dict_step_entry k v d :
  match entry_var k v with
  | Ok x => exists d', from_dict_step k v d = Ok d' /\ getitem k d' = Ok x
  | Err e => from_dict_step k v d = Err e
  end.
Proof.
  unfold entry_var, from_dict_step. set (x := mkvar _ _ _ _ _ _ _ _).
  assert (H : getitem k (add_variable k default_props d) = Ok x) by apply getitem_add_same.
  destruct v; try (eexists; split; [reflexivity|exact H]).
  - rewrite H; simpl. destruct (from_list l x); simpl; [|reflexivity].
    eexists; split; [reflexivity|apply getitem_put_same].
  - rewrite H; simpl. destruct (from_dict_var d0 x); simpl; [|reflexivity].
    eexists; split; [reflexivity|apply getitem_put_same].
Qed.

Lemma from_dict_loop_other items : forall d d' m, ~ In m (keys items) ->
  from_dict_loop items d = Ok d' -> getitem m d' = getitem m d.
Proof.
  induction items as [|[k v] r IH]; simpl; intros d d' m Hm E; [inversion E; reflexivity|].
  destruct (from_dict_step k v d) eqn:F; simpl in E; [|discriminate].
  rewrite (IH _ _ m) with (2 := E) by tauto. eapply from_dict_step_other; [|exact F]. intros ->; tauto.
Qed.

Lemma from_dict_loop_spec items : forall d,
  NoDup (keys items) -> (forall m, In m (keys items) -> ~ In m (d_variables d)) ->
  (forall k v, In (k, v) items -> is_ok (entry_var k v) = true) ->
  exists d', from_dict_loop items d = Ok d' /\
    d_variables d' = (d_variables d ++ keys items)%list /\
    (forall k v, In (k, v) items -> getitem k d' = entry_var k v).
Proof.
  induction items as [|[k v] r IH]; intros d Hn Hf Hok.
  - exists d. simpl. rewrite app_nil_r. split; [reflexivity|]. split; [reflexivity|]. simpl; tauto.
  - inversion Hn as [|? ? Hk Hr]; subst.
    assert (Hx : is_ok (entry_var k v) = true) by (apply Hok; left; reflexivity).
    assert (Q := from_dict_step_entry k v d). destruct (entry_var k v) as [x|] eqn:Ex; [|discriminate].
    destruct Q as (d1 & E1 & G1).
    assert (K1 := from_dict_step_keys _ _ _ _ E1).
    assert (Hkd : inb string_dec k (d_variables d) = false).
    { apply inb_false. apply Hf. left; reflexivity. }
    simpl in K1. rewrite Hkd in K1.
    destruct (IH d1 Hr) as (d' & E' & K' & G').
    { intros m Hm. rewrite K1, in_app_iff. simpl. intros [Hi|[->|[]]]; [|tauto].
      apply (Hf m); [right; exact Hm|exact Hi]. }
    { intros k0 v0 Hi. apply Hok. right; exact Hi. }
    exists d'. simpl. rewrite E1. simpl. split; [exact E'|]. split.
    { rewrite K', K1, <- app_assoc. reflexivity. }
    intros k0 v0 [Hi|Hi]; [|apply G'; exact Hi].
    inversion Hi; subst. rewrite (from_dict_loop_other _ _ _ k0 Hk E'). rewrite G1, Ex. reflexivity.
Qed.

Lemma to_dict_loop_spec f names : forall d acc,
  NoDup names -> (forall n, In n names -> ~ In n (keys acc)) ->
  (forall n, In n names -> exists x v, getitem n d = Ok x /\ f x = Ok v) ->
  exists out, to_dict_loop f names d acc = Ok out /\
    out = (acc ++ map (fun n => (n, match getitem n d with
                                    | Ok x => match f x with Ok v => v | Err _ => VNone end
                                    | Err _ => VNone end)) names)%list.
Proof.
  induction names as [|n r IH]; intros d acc Hn Hf Hok; simpl.
  - exists acc. rewrite app_nil_r. auto.
  - inversion Hn as [|? ? Hk Hr]; subst.
    destruct (Hok n (or_introl eq_refl)) as (x & v & E1 & E2). rewrite E1; simpl. rewrite E2; simpl.
    assert (Hacc : dset string_dec n v acc = (acc ++ [(n, v)])%list).
    { assert (Hn' : ~ In n (keys acc)) by (apply Hf; left; reflexivity). clear - Hn'.
      induction acc as [|[a b] acc IH]; simpl; [reflexivity|].
      destruct (string_dec n a) as [->|]; [exfalso; apply Hn'; left; reflexivity|].
      rewrite IH; [reflexivity|]. intros Hi; apply Hn'; right; exact Hi. }
    destruct (IH d (dset string_dec n v acc) Hr) as (out & Eo & Es).
    { intros m Hm. rewrite Hacc. unfold keys. rewrite map_app, in_app_iff. simpl.
      intros [Hi|[->|[]]]; [|tauto]. apply (Hf m); [right; exact Hm|exact Hi]. }
    { intros m Hm. apply Hok. right; exact Hm. }
    exists out. split; [exact Eo|]. rewrite Es, Hacc, <- app_assoc. reflexivity.
Qed.

Lemma wf_getitem d n : wf d -> (In n (d_variables d) <-> exists x, getitem n d = Ok x).
Proof.
  intros (H1 & H2 & H3). rewrite H3, <- dmem_in. split; [apply getitem_dmem|].
  intros [x Hx]. eapply getitem_ok; eauto.
Qed.

Lemma wf_to_list d : wf d ->
  to_dict "list" d =
  Ok (map (fun n => (n, match getitem n d with Ok x => VList (to_list x) | Err _ => VNone end)) (d_variables d)).
Proof.
  intros H. unfold to_dict. simpl.
  destruct (to_dict_loop_spec (fun x => Ok (VList (to_list x))) (d_variables d) d []) as (out & E & S).
  - apply H.
  - simpl; tauto.
  - intros n Hn. apply wf_getitem in Hn; [|exact H]. destruct Hn as [x Hx]. eauto.
  - rewrite E, S. reflexivity.
Qed.

Lemma keys_map_pair {A} (f : string -> A) l : keys (map (fun n => (n, f n)) l) = l.
Proof. unfold keys. rewrite map_map. simpl. apply map_id. Qed.

Lemma property_absent d x k : getitem x d = Err AttributeError -> property x k d = None.
Proof. intros H. unfold property. rewrite H. reflexivity. Qed.

Lemma rebuild_list d : wf d -> exists items d', to_dict "list" d = Ok items /\ from_dict items = Ok d'
  /\ keys items = d_variables d /\ same_definitions d' d.
Proof.
  intros H. eexists. rewrite (wf_to_list d H). set (items := map _ _).
  assert (Hk : keys items = d_variables d) by apply keys_map_pair.
  assert (Hent : forall k v, In (k, v) items -> exists x, getitem k d = Ok x /\ v = VList (to_list x)).
  { intros k v Hi. apply in_map_iff in Hi. destruct Hi as (n & E & Hn). inversion E; subst.
    apply wf_getitem in Hn; [|exact H]. destruct Hn as [x Hx]. exists x. rewrite Hx. auto. }
  destruct (from_dict_loop_spec items new_defdict) as (d' & E & K & G).
  - rewrite Hk. apply H.
  - simpl. tauto.
  - intros k v Hi. apply Hent in Hi. destruct Hi as (x & Hx & ->). reflexivity.
  - exists d'. split; [reflexivity|]. split; [exact E|]. split; [exact Hk|].
    assert (W' : wf d') by (eapply from_dict_loop_wf; [apply wf_new|exact E]).
    split.
    + unfold dd_keys. rewrite K. simpl. exact Hk.
    + intros x k. unfold property. destruct (in_dec string_dec x (d_variables d)) as [Hi|Hi].
      * assert (Hi' := Hi). apply wf_getitem in Hi'; [|exact H]. destruct Hi' as [y Hy].
        assert (Hin : In (x, VList (to_list y)) items).
        { apply in_map_iff. exists x. rewrite Hy. auto. }
        rewrite (G _ _ Hin), Hy. reflexivity.
      * assert (Hx : getitem x d = Err AttributeError).
        { unfold getitem. destruct (dget string_dec x (d_vars d)) eqn:F; [|reflexivity].
          exfalso. apply Hi. apply wf_getitem; [exact H|]. exists v. unfold getitem. rewrite F. reflexivity. }
        assert (Hx' : getitem x d' = Err AttributeError).
        { unfold getitem. destruct (dget string_dec x (d_vars d')) eqn:F; [|reflexivity].
          exfalso. apply Hi. rewrite <- Hk. change (In x ([] ++ keys items)%list). 
          change (@nil string) with (d_variables new_defdict). rewrite <- K.
          apply wf_getitem; [exact W'|]. exists v. unfold getitem. rewrite F. reflexivity. }
        rewrite Hx, Hx'. reflexivity.
Qed.

(** ** order of the listing *)
Lemma run_snoc ops o d : run (ops ++ [o]) d =
  (fst (step o (fst (run ops d))), (snd (run ops d) ++ [(o, snd (step o (fst (run ops d))))])%list).
Proof.
  revert d. induction ops as [|a r IH]; intros d; simpl.
  - destruct (step o d); reflexivity.
  - destruct (step a d) as [d1 e]. rewrite IH. destruct (run r d1) as [d2 tr]. reflexivity.
Qed.

Definition Hinv (h : list (op * option pyerr)) (d : defdict) : Prop :=
  (forall x, In x (d_variables d) <-> defined_after h x = true) /\
  (forall x, In x (d_variables d) -> (inserted_at h x < List.length h)%nat) /\
  StronglySorted (fun x y => (inserted_at h x < inserted_at h y)%nat) (d_variables d).

Lemma ss_ext {A} (P Q : A -> A -> Prop) l :
  (forall x y, In x l -> In y l -> P x y -> Q x y) -> StronglySorted P l -> StronglySorted Q l.
Proof.
  intros H S. induction S as [|a l S IH F]; [constructor|].
  constructor; [apply IH; intros; apply H; simpl; auto|].
  rewrite Forall_forall in *. intros y Hy. apply H; simpl; auto.
Qed.

(** calls that change neither the listing nor what is defined *)
Lemma Hinv_same h e d d' : Hinv h d -> d_variables d' = d_variables d ->
  (forall x, defined_after (e :: h) x = defined_after h x) -> Hinv (e :: h) d'.
Proof.
  intros (H1 & H2 & H3) Hv Hd.
  assert (Hi : forall x, In x (d_variables d) -> inserted_at (e :: h) x = inserted_at h x).
  { intros x Hx. apply H1 in Hx. simpl. rewrite Hx. reflexivity. }
  unfold Hinv. rewrite Hv. split; [|split].
  - intros x. rewrite Hd. apply H1.
  - intros x Hx. rewrite (Hi x Hx). specialize (H2 x Hx). simpl. lia.
  - eapply ss_ext; [|exact H3]. intros x y Hx Hy Hp. cbv beta in *. rewrite (Hi x Hx), (Hi y Hy). exact Hp.
Qed.

Lemma ss_snoc {A} (P : A -> A -> Prop) l z :
  StronglySorted P l -> (forall x, In x l -> P x z) -> StronglySorted P (l ++ [z]).
Proof.
  induction 1 as [|a l S IH F]; intros H; simpl; [repeat constructor|].
  constructor; [apply IH; intros; apply H; simpl; auto|].
  rewrite Forall_app. split; [exact F|]. constructor; [apply H; simpl; auto|constructor].
Qed.

Lemma Hinv_insert h e d d' n : Hinv h d ->
  d_variables d' = (if inb string_dec n (d_variables d) then d_variables d
                    else (d_variables d ++ [n])%list) ->
  (forall x, defined_after (e :: h) x = String.eqb n x || defined_after h x) -> Hinv (e :: h) d'.
Proof.
  intros H Hv Hd. destruct (inb string_dec n (d_variables d)) eqn:E.
  - apply (Hinv_same h e d d' H Hv). intros x. rewrite Hd. destruct (String.eqb n x) eqn:F; [|reflexivity].
    apply String.eqb_eq in F; subst. apply inb_iff in E. apply (proj1 H) in E. rewrite E. reflexivity.
  - apply inb_false in E. destruct H as (H1 & H2 & H3).
    assert (Hi : forall x, In x (d_variables d) -> inserted_at (e :: h) x = inserted_at h x).
    { intros x Hx. apply H1 in Hx. simpl. rewrite Hx. reflexivity. }
    assert (Hz : inserted_at (e :: h) n = List.length h).
    { simpl. destruct (defined_after h n) eqn:F; [|reflexivity]. apply H1 in F. tauto. }
    unfold Hinv. rewrite Hv. split; [|split].
    + intros x. rewrite Hd, in_app_iff, orb_true_iff, H1, String.eqb_eq. simpl. firstorder.
    + intros x Hx. apply in_app_iff in Hx. destruct Hx as [Hx|[<-|[]]].
      * rewrite (Hi x Hx). specialize (H2 x Hx). simpl. lia.
      * rewrite Hz. simpl. lia.
    + apply ss_snoc.
      * eapply ss_ext; [|exact H3]. intros x y Hx Hy Hp. cbv beta in *. rewrite (Hi x Hx), (Hi y Hy). exact Hp.
      * intros x Hx. rewrite (Hi x Hx), Hz. apply H2; exact Hx.
Qed.

Lemma ss_remove_first (P : string -> string -> Prop) n l : StronglySorted P l -> StronglySorted P (remove_first n l).
Proof.
  induction 1 as [|a l S IH F]; simpl; [constructor|]. destruct (string_dec n a); [exact S|].
  constructor; [exact IH|]. rewrite Forall_forall in *. intros y Hy. apply F. clear - Hy.
  induction l as [|b l IH]; simpl in *; [exact Hy|]. destruct (string_dec n b); simpl in *; tauto.
Qed.

Lemma Hinv_remove h e d d' n : NoDup (d_variables d) -> Hinv h d ->
  d_variables d' = remove_first n (d_variables d) ->
  (forall x, defined_after (e :: h) x = negb (String.eqb n x) && defined_after h x) -> Hinv (e :: h) d'.
Proof.
  intros Hn (H1 & H2 & H3) Hv Hd.
  assert (Hi : forall x, In x (d_variables d) -> inserted_at (e :: h) x = inserted_at h x).
  { intros x Hx. apply H1 in Hx. simpl. rewrite Hx. reflexivity. }
  unfold Hinv. rewrite Hv. split; [|split].
  - intros x. rewrite Hd, remove_first_in, andb_true_iff, negb_true_iff, <- H1, String.eqb_neq by exact Hn.
    firstorder.
  - intros x Hx. apply remove_first_in in Hx; [|exact Hn]. rewrite (Hi x) by tauto.
    specialize (H2 x (proj2 Hx)). simpl. lia.
  - apply ss_remove_first. eapply ss_ext; [|exact H3].
    intros x y Hx Hy Hp. cbv beta in *. rewrite (Hi x Hx), (Hi y Hy). exact Hp.
Qed.

Lemma modify_variables n f d : d_variables (fst (modify n f d)) = d_variables d.
Proof. unfold modify. destruct (getitem n d); [|reflexivity]. destruct (f a); reflexivity. Qed.

Lemma Hinv_step h d o : wf d -> Hinv h d -> Hinv ((o, snd (step o d)) :: h) (fst (step o d)).
Proof.
  intros W H. destruct o.
  - simpl. destruct (bind_args pos kw); simpl.
    + apply (Hinv_insert h _ d _ name H); [reflexivity|]. intros x. reflexivity.
    + apply (Hinv_same h _ d _ H); [reflexivity|]. intros x. reflexivity.
  - simpl. rewrite remove_wf by exact W. destruct (inb string_dec name (d_variables d)) eqn:E; simpl.
    + apply (Hinv_remove h _ d _ name (proj1 W) H); [reflexivity|]. intros x. reflexivity.
    + apply (Hinv_same h _ d _ H); [reflexivity|]. intros x. reflexivity.
  - cbn [step]. unfold setattr_defdict.
    destruct (starts_underscore name) eqn:U; cbn [negb andb].
    { destruct (String.eqb name "var"); simpl; (apply (Hinv_same h _ d _ H); [reflexivity|]); intros x; [reflexivity|].
      simpl. destruct (String.eqb name x) eqn:E; [|reflexivity]. apply String.eqb_eq in E; subst.
      unfold starts_underscore in U. change (defined_after ((Assign x v, None) :: h) x) with
        ((String.eqb x x && negb (String.prefix "_" x)) || defined_after h x).
      rewrite U. rewrite andb_false_r. reflexivity. }
    assert (Hins : forall p, Hinv ((Assign name v, None) :: h) (add_variable name p d)).
    { intros p. apply (Hinv_insert h _ d _ name H); [reflexivity|]. intros x.
      change (defined_after ((Assign name v, None) :: h) x) with
        ((String.eqb name x && negb (String.prefix "_" x)) || defined_after h x).
      destruct (String.eqb name x) eqn:E; [|reflexivity]. apply String.eqb_eq in E; subst.
      unfold starts_underscore in U. rewrite U. reflexivity. }
    assert (Herr : forall e, Hinv ((Assign name v, Some e) :: h) d).
    { intros e. apply (Hinv_same h _ d _ H); [reflexivity|]. intros x. reflexivity. }
    destruct (inb string_dec name (d_variables d)) eqn:E; cbn [negb andb].
    + destruct (String.eqb name "var"); simpl; [apply Herr|].
      apply (Hinv_same h _ d _ H); [reflexivity|]. intros x.
      change (defined_after ((Assign name v, None) :: h) x) with
        ((String.eqb name x && negb (String.prefix "_" x)) || defined_after h x).
      destruct (String.eqb name x) eqn:F; [|reflexivity]. apply String.eqb_eq in F; subst.
      apply inb_iff in E. apply (proj1 H) in E. rewrite E. apply orb_true_r.
    + destruct v; try apply Herr; cbv iota beta.
      * destruct (bind_pos paramnames l default_props); [apply Hins|apply Herr].
      * destruct (bind_kw d0 default_props); [apply Hins|apply Herr].
  - simpl. apply (Hinv_same h _ d _ H); [apply modify_variables|].
    intros x. simpl. destruct (snd (modify name (setitem_int i v) d)); reflexivity.
  - simpl. apply (Hinv_same h _ d _ H); [apply modify_variables|].
    intros x. simpl. destruct (snd (modify name (setitem_key k v) d)); reflexivity.
  - simpl. apply (Hinv_same h _ d _ H); [apply modify_variables|].
    intros x. simpl. destruct (snd (modify name (setattr_var k v) d)); reflexivity.
Qed.

Lemma run_inv ops : wf (fst (run ops new_defdict)) /\
  Hinv (rev (snd (run ops new_defdict))) (fst (run ops new_defdict)).
Proof.
  induction ops as [|o ops IH] using rev_ind.
  - split; [apply wf_new|]. split; [simpl; intros; split; [tauto|discriminate]|]. split; [simpl; tauto|constructor].
  - rewrite run_snoc. simpl. destruct IH as [W H]. split; [apply wf_step; exact W|].
    rewrite rev_app_distr. simpl. apply Hinv_step; assumption.
Qed.

Lemma ss_before {A} (f : A -> nat) l : StronglySorted (fun x y => (f x < f y)%nat) l ->
  forall x y, before x y l <-> In x l /\ In y l /\ (f x < f y)%nat.
Proof.
  induction 1 as [|a l S IH F]; intros x y.
  - split; [|simpl; tauto]. intros (l1 & l2 & l3 & E). destruct l1; discriminate.
  - rewrite Forall_forall in F. split.
    + intros (l1 & l2 & l3 & E). destruct l1 as [|b l1]; simpl in E; inversion E; subst.
      * split; [left; reflexivity|].
        assert (Hy : In y (l2 ++ y :: l3)) by (rewrite in_app_iff; simpl; auto).
        split; [right; exact Hy|]. apply F; exact Hy.
      * assert (B : before x y (l1 ++ x :: l2 ++ y :: l3)%list) by (exists l1, l2, l3; reflexivity).
        apply IH in B. simpl. tauto.
    + intros (Hx & Hy & Hf). destruct Hx as [->|Hx].
      * destruct Hy as [->|Hy]; [lia|]. apply in_split in Hy. destruct Hy as (l2 & l3 & ->).
        exists [], l2, l3. reflexivity.
      * destruct Hy as [->|Hy]; [specialize (F x Hx); simpl in F; lia|].
        assert (B : before x y l) by (apply IH; auto). destruct B as (l1 & l2 & l3 & ->).
        exists (a :: l1)%list, l2, l3. reflexivity.
Qed.

(** ** effect of single calls *)
Lemma modify_other n f d m : m <> n -> getitem m (fst (modify n f d)) = getitem m d.
Proof.
  intros H. unfold modify. destruct (getitem n d); [|reflexivity]. destruct (f a); [|reflexivity].
  simpl. apply getitem_put_other; exact H.
Qed.

Lemma step_other o d m : wf d -> m <> target o -> getitem m (fst (step o d)) = getitem m d.
Proof.
  intros W. destruct o; simpl; intros H; try (apply modify_other; exact H).
  - destruct (bind_args pos kw); [apply getitem_add_other; exact H|reflexivity].
  - rewrite remove_wf by exact W. destruct (inb string_dec name (d_variables d)); [|reflexivity].
    unfold getitem; simpl. rewrite dget_ddel_other by exact H. reflexivity.
  - unfold setattr_defdict. destruct (negb _ && negb _).
    + destruct v; try reflexivity.
      * destruct (bind_pos paramnames l default_props); [apply getitem_add_other; exact H|reflexivity].
      * destruct (bind_kw d0 default_props); [apply getitem_add_other; exact H|reflexivity].
    + destruct (String.eqb name "var"); reflexivity.
Qed.

Lemma step_err o d e : wf d -> snd (step o d) = Some e -> fst (step o d) = d.
Proof.
  intros W. destruct o; simpl.
  - destruct (bind_args pos kw); simpl; [discriminate|reflexivity].
  - rewrite remove_wf by exact W. destruct (inb string_dec name (d_variables d)); simpl; [discriminate|reflexivity].
  - unfold setattr_defdict. destruct (negb _ && negb _).
    + destruct v; try reflexivity.
      * destruct (bind_pos paramnames l default_props); simpl; [discriminate|reflexivity].
      * destruct (bind_kw d0 default_props); simpl; [discriminate|reflexivity].
    + destruct (String.eqb name "var"); simpl; [reflexivity|discriminate].
  - unfold modify. destruct (getitem name d); [|reflexivity]. destruct (setitem_int i v a); simpl; [discriminate|reflexivity].
  - unfold modify. destruct (getitem name d); [|reflexivity]. destruct (setitem_key k v a); simpl; [discriminate|reflexivity].
  - unfold modify. destruct (getitem name d); [|reflexivity]. destruct (setattr_var k v a); simpl; [discriminate|reflexivity].
Qed.

Lemma get_set_param k v x y : set_param k v x = Some y ->
  forall k', get_param k' y = if String.eqb k' k then Some v else get_param k' x.
Proof.
  unfold set_param. intros E k'.
  repeat match type of E with
  | (if String.eqb k ?s then _ else _) = _ =>
      destruct (String.eqb k s) eqn:?E; [apply String.eqb_eq in E0 || idtac|]
  end; try discriminate; inversion E; subst; unfold get_param; simpl;
  repeat match goal with
  | H : String.eqb k ?s = true |- _ => apply String.eqb_eq in H; subst k
  end;
  repeat match goal with |- context[String.eqb k' ?s] => destruct (String.eqb k' s) eqn:? end;
  repeat match goal with H : String.eqb k' _ = true |- _ => apply String.eqb_eq in H end; subst;
  try discriminate; try reflexivity; try congruence.
Qed.

(** ** list assignment (C38) *)
Fixpoint vsize (v : val) : nat :=
  match v with
  | VList l | VTup l => S ((fix go (l : list val) : nat := match l with [] => 0 | x :: r => vsize x + go r end) l)
  | _ => 1
  end%nat.

Lemma vsize_pos v : (1 <= vsize v)%nat.
Proof. destruct v; simpl; lia. Qed.

Lemma unpack1_size v a : unpack1 v = Ok a -> (vsize a <= vsize v)%nat.
Proof.
  unfold unpack1. destruct v; simpl; try discriminate.
  - destruct (map _ (list_ascii_of_string s)) as [|c [|? ?]] eqn:E; try discriminate.
    intros Q; inversion Q; subst. destruct (list_ascii_of_string s); simpl in E; [discriminate|].
    inversion E; subst. simpl. lia.
  - destruct l as [|x [|? ?]]; try discriminate. intros Q; inversion Q; subst. simpl. lia.
  - destruct l as [|x [|? ?]]; try discriminate. intros Q; inversion Q; subst. simpl. lia.
  - destruct d as [|x [|? ?]]; try discriminate. simpl. intros Q; inversion Q; subst. simpl. lia.
Qed.

Lemma unpack_minmax_neq m a b : unpack_minmax m = Ok (a, b) -> a <> m.
Proof.
  unfold unpack_minmax. destruct m; simpl; try discriminate.
  - destruct s as [|c1 [|c2 [|? ?]]]; simpl; try discriminate. intros Q; inversion Q; subst. discriminate.
  - destruct l as [|x [|y [|? ?]]]; try discriminate.
    destruct (unpack1 x) eqn:E; simpl; [|discriminate]. destruct (unpack1 y) eqn:E2; simpl; [|discriminate].
    intros Q; inversion Q; subst. apply unpack1_size in E. intros ->. simpl in E. lia.
  - destruct l as [|x [|y [|? ?]]]; try discriminate.
    destruct (unpack1 x) eqn:E; simpl; [|discriminate]. destruct (unpack1 y) eqn:E2; simpl; [|discriminate].
    intros Q; inversion Q; subst. apply unpack1_size in E. intros ->. simpl in E. lia.
  - destruct d as [|x [|y [|? ?]]]; simpl; try discriminate.
    destruct (unpack1 (VStr (fst x))) eqn:E; simpl; [|discriminate].
    destruct (unpack1 (VStr (fst y))) eqn:E2; simpl; [|discriminate].
    intros Q; inversion Q; subst. unfold unpack1 in E; simpl in E.
    destruct (list_ascii_of_string (fst x)) as [|c [|? ?]]; simpl in E; try discriminate.
    inversion E; subst. discriminate.
Qed.

Lemma assign_new x v d : String.prefix "_" x = false -> ~ In x (d_variables d) ->
  setattr_defdict x v d =
    match v with
    | VDict kw => match bind_kw kw default_props with Ok p => (add_variable x p d, None) | Err e => (d, Some e) end
    | VList l => match bind_pos paramnames l default_props with Ok p => (add_variable x p d, None) | Err e => (d, Some e) end
    | _ => (d, Some AttributeError)
    end.
Proof.
  intros H1 H2. unfold setattr_defdict, starts_underscore. rewrite H1. apply inb_false with (eqd := string_dec) in H2.
  rewrite H2. reflexivity.
Qed.

Lemma property_add x p d k : property x k (add_variable x p d) =
  get_param k (mkvar (VStr x) (p_fitQ p) (p_val p) (p_freq p) (p_minval p) (p_maxval p) (p_interpQ p) []).
Proof. unfold property. rewrite getitem_add_same. reflexivity. Qed.

Lemma from_dict_single x v : match entry_var x v with
  | Ok y => exists d, from_dict [(x, v)] = Ok d /\ getitem x d = Ok y /\ dd_keys d = [x]
  | Err e => from_dict [(x, v)] = Err e
  end.
Proof.
  assert (Q := from_dict_step_entry x v new_defdict). unfold from_dict; cbn [from_dict_loop].
  destruct (entry_var x v).
  - destruct Q as (d & E & G). exists d. rewrite E. cbn [bind]. split; [reflexivity|]. split; [exact G|].
    unfold dd_keys. rewrite (from_dict_step_keys _ _ _ _ E). reflexivity.
  - rewrite Q. reflexivity.
Qed.

Definition var_of (n : val) (p : props) (e : dict string val) : variable :=
  mkvar n (p_fitQ p) (p_val p) (p_freq p) (p_minval p) (p_maxval p) (p_interpQ p) e.

Lemma set_prop_param k v p p' n e : set_prop k v p = Ok p' -> set_param k v (var_of n p e) = Some (var_of n p' e).
Proof.
  unfold set_prop, set_param. intros E.
  repeat match type of E with
  | (if String.eqb k ?s then _ else _) = _ => destruct (String.eqb k s)
  end; try discriminate; inversion E; reflexivity.
Qed.

Lemma bind_kw_from_dict kw : forall p p' n e, bind_kw kw p = Ok p' ->
  from_dict_var kw (var_of n p e) = Ok (var_of n p' e).
Proof.
  induction kw as [|[k v] r IH]; intros p p' n e; cbn [bind_kw from_dict_var].
  - intros E; inversion E; reflexivity.
  - destruct (set_prop k v p) eqn:F; cbn [bind]; [|discriminate]. intros E.
    unfold setattr_var. rewrite (set_prop_param _ _ _ _ n e F). cbn [bind]. apply IH; exact E.
Qed.

Lemma set_prop_ok k v p : In k paramnames -> exists p', set_prop k v p = Ok p'.
Proof.
  unfold paramnames. intros H. simpl in H.
  repeat (destruct H as [<-|H]; [eexists; reflexivity|]). destruct H.
Qed.

Lemma bind_kw_ok kw : forall p, (forall k, In k (keys kw) -> In k paramnames) -> exists p', bind_kw kw p = Ok p'.
Proof.
  induction kw as [|[k v] r IH]; intros p H; cbn [bind_kw]; [eauto|].
  destruct (set_prop_ok k v p) as [p1 E]; [apply H; left; reflexivity|]. rewrite E. cbn [bind].
  apply IH. intros k' Hk. apply H. right; exact Hk.
Qed.

Lemma set_param_some k v x : In k paramnames -> exists y, set_param k v x = Some y.
Proof.
  unfold paramnames. intros H. simpl in H.
  repeat (destruct H as [<-|H]; [eexists; reflexivity|]). destruct H.
Qed.

Lemma set_param_none k v x : ~ In k paramnames -> set_param k v x = None.
Proof.
  unfold paramnames, set_param. intros H. simpl in H.
  repeat match goal with |- context[String.eqb k ?s] =>
    let E := fresh in destruct (String.eqb k s) eqn:E; [apply String.eqb_eq in E; subst; exfalso; apply H; tauto|] end.
  reflexivity.
Qed.

Lemma from_dict_var_get kw : forall x y, NoDup (keys kw) -> from_dict_var kw x = Ok y ->
  forall k, In k paramnames ->
  get_param k y = match dget string_dec k kw with Some v => Some v | None => get_param k x end.
Proof.
  induction kw as [|[k0 v] r IH]; intros x y Hn E k Hk; cbn [from_dict_var] in E.
  - inversion E; reflexivity.
  - inversion Hn as [|? ? Hk0 Hr]; subst. unfold setattr_var in E.
    cbn [dget].
    destruct (in_dec string_dec k0 paramnames) as [Hin|Hin].
    + destruct (set_param_some k0 v x Hin) as [x1 E1]. rewrite E1 in E. cbn [bind] in E.
      rewrite (IH _ _ Hr E k Hk), (get_set_param _ _ _ _ E1).
      destruct (string_dec k k0) as [->|Hne].
      * apply (dget_none string_dec) in Hk0. rewrite Hk0, String.eqb_refl. reflexivity.
      * apply String.eqb_neq in Hne. rewrite Hne. reflexivity.
    + rewrite (set_param_none k0 v x Hin) in E.
      destruct (string_dec k k0) as [->|Hne]; [tauto|].
      destruct (String.eqb k0 "name" || String.eqb k0 "_props"); [discriminate|]. cbn [bind] in E.
      rewrite (IH _ _ Hr E k Hk). reflexivity.
Qed.
