(** Proofs about Dmp_Model *)
From Coq Require Import String Bool Arith List.
From Verif Require Import Base Base_Proofs Ids_Model Dmp_Model Dmp_Spec.
Import ListNotations.
Local Open Scope string_scope.
Local Open Scope list_scope.

Section Dmp.
Context {V : Type} (version plots two backend true_ : av V).
Notation update := (update plots two backend true_).
Notation setstate := (setstate plots two backend true_).
Notation load := (load plots two backend true_).

Lemma attr_set_eq k v (d : fobj V) : attr (set k v d) k = Some v. Proof. apply dget_dset_same. Qed.
Lemma attr_set_ne k k' v (d : fobj V) : k <> k' -> attr (set k' v d) k = attr d k. Proof. intros. apply dget_dset_other. auto. Qed.
Lemma attr_del_eq k (d : fobj V) : NoDup (map fst d) -> attr (del k d) k = None. Proof. intros. apply dget_ddel_same. auto. Qed.
Lemma attr_del_ne k k' (d : fobj V) : k <> k' -> attr (del k' d) k = attr d k. Proof. intros. apply dget_ddel_other. auto. Qed.
Lemma nodup_set k v (d : fobj V) : NoDup (map fst d) -> NoDup (map fst (set k v d)). Proof. apply NoDup_keys_dset. Qed.
Lemma nodup_del k (d : fobj V) : NoDup (map fst d) -> NoDup (map fst (del k d)).
Proof.
  intros H. unfold del. change (NoDup (keys (ddel string_dec k d))). rewrite keys_ddel by exact H.
  change (NoDup (keys d)) in H. induction (keys d) as [|a l IH]; simpl; [constructor|].
  inversion H; subst. destruct (string_dec k a); [auto|]. constructor; [|auto]. intros Hi. apply in_remove in Hi. tauto.
Qed.
Lemma has_key_attr k (d : fobj V) : attr d k <> None -> has_key k d = true.
Proof. unfold has_key, dmem, attr. destruct (dget string_dec k d); congruence. Qed.
Lemma has_key_none k (d : fobj V) : attr d k = None -> has_key k d = false.
Proof. unfold has_key, dmem, attr. intros ->. reflexivity. Qed.

(** current, or with the mini fields replaced *)
Definition loadable (d : fobj V) : Prop := current d.

Lemma set_same k v (d : fobj V) : get k d = Some v -> set k v d = d.
Proof.
  unfold get, set. induction d as [|[k' v'] r IH]; simpl; [discriminate|].
  destruct (string_dec k k') as [->|]; intros H; [congruence|]. f_equal. auto.
Qed.
Lemma old_shape_current rd : (forall k (v : av V), In (k, v) rd -> exists l, v = AList l /\ forall x, In x l -> exists y, x = AV y) ->
  old_shape rd = true -> rd = [].
Proof.
  destruct rd as [|[k v] rd]; [auto|]. intros H E. simpl in E. destruct (H k v (or_introl eq_refl)) as (l & -> & Hl).
  destruct l as [|x [|y [|z l]]]; try discriminate. all: destruct (Hl x (or_introl eq_refl)) as [w ->]; discriminate.
Qed.
Lemma update_current (d : fobj V) : current d -> update d = d.
Proof.
  intros (ND & K & [s ID] & FS & MK & RD). unfold Dmp_Model.update.
  rewrite (has_key_attr "plot") by (apply K; simpl; tauto). rewrite (has_key_attr "verbose") by (apply K; simpl; tauto).
  assert (G : get "fitset" d = None) by exact FS. cbv zeta. rewrite !G.
  rewrite !(has_key_attr "lsq_kwargs") by (apply K; simpl; tauto).
  assert (P : forall a x, In a ["int_Q"; "lambda_backend"; "_fnevals_input"] -> pop_kw a x d = d).
  { intros a x Ha. unfold pop_kw. rewrite has_key_attr; [reflexivity|]. apply K. simpl in *. tauto. }
  rewrite !P by (simpl; tauto).
  destruct (get "res_dict" d) as [v|] eqn:E; [|reflexivity]. destruct v; try reflexivity.
  destruct (old_shape d0) eqn:O; [|reflexivity]. specialize (RD d0 E).
  rewrite (old_shape_current d0 RD O) in *. apply set_same. exact E.
Qed.
Lemma load_current s (d : fobj V) : current d -> load s d = d.
Proof.
  intros H. unfold Dmp_Model.load, Dmp_Model.setstate. pose proof H as (ND & K & [i ID] & _).
  rewrite (has_key_attr "_dataset") by (apply K; simpl; tauto). rewrite update_current by exact H.
  unfold get. unfold attr in ID. rewrite ID. reflexivity.
Qed.

Definition mini_state (d : fobj V) : fobj V := set "fit_output" (ADict (fit_props d)) (set "_fnevals_input" ANone d).

(** attributes that may be set without leaving the current shape *)
Lemma current_set k v (d : fobj V) : current d -> v <> ANone \/ In k ["_fnevals_input"] ->
  In k ["_RT1_version"; "fit_output"; "_fnevals_input"] -> current (set k v d).
Proof.
  intros (ND & K & [s ID] & FS & MK & RD) Hv Hk.
  assert (N : forall k', ~ In k' ["_RT1_version"; "fit_output"; "_fnevals_input"] -> attr (set k v d) k' = attr d k').
  { intros k' Hn. apply attr_set_ne. intros ->. contradiction. }
  split; [apply nodup_set; exact ND|]. split.
  - intros k' Hk'. destruct (string_dec k' k) as [->|Hn]; [rewrite attr_set_eq; discriminate|]. rewrite attr_set_ne by exact Hn. auto.
  - split; [exists s; rewrite N; [exact ID|simpl; intuition discriminate]|].
    split; [rewrite N; [exact FS|simpl; intuition discriminate]|]. split; [rewrite N; [exact MK|simpl; intuition discriminate]|].
    intros rd. rewrite N by (simpl; intuition discriminate). apply RD.
Qed.

Lemma set_del k v (d : fobj V) : attr d k = None -> NoDup (map fst d) -> del k (set k v d) = d.
Proof.
  unfold attr, del, set. induction d as [|[k' v'] r IH]; simpl; intros H ND.
  - destruct (string_dec k k); congruence.
  - destruct (string_dec k k') as [->|Hn]; [discriminate|]. simpl. destruct (string_dec k k'); [contradiction|]. f_equal.
    apply IH; [exact H|]. inversion ND; auto.
Qed.
Lemma del_none k (d : fobj V) : attr d k = None -> del k d = d.
Proof.
  unfold attr, del. induction d as [|[k' v'] r IH]; simpl; intros H; [reflexivity|].
  destruct (string_dec k k') as [->|Hn]; [discriminate|]. f_equal. auto.
Qed.

Lemma current_mini (d : fobj V) : current d -> current (mini_state d).
Proof.
  intros H. apply current_set; [apply current_set; [exact H|right; simpl; auto|simpl; auto]|left; discriminate|simpl; auto].
Qed.

Lemma mark_getstate_mini (d : fobj V) : current d -> version <> ANone ->
  dump version true true d = (set "_RT1_version" version d, Ok (mini_state (set "_RT1_version" version d))).
Proof.
  intros H Hv. pose proof H as (ND & _ & _ & _ & MK & _). unfold dump, mark, getstate.
  rewrite has_key_attr by (rewrite attr_set_eq; discriminate).
  rewrite set_del; [reflexivity| |apply nodup_set; exact ND]. rewrite attr_set_ne by discriminate. exact MK.
Qed.
Lemma mark_getstate_full (d : fobj V) : current d ->
  dump version true false d = (set "_RT1_version" version d, Ok (set "_RT1_version" version d)).
Proof.
  intros H. pose proof H as (ND & _ & _ & _ & MK & _). unfold dump, mark, getstate.
  assert (E : attr (set "_RT1_version" version d) "_rt1_dump_mini" = None) by (rewrite attr_set_ne by discriminate; exact MK).
  rewrite del_none by exact E. rewrite has_key_none by exact E. reflexivity.
Qed.
Lemma getstate_current (d : fobj V) : current d -> getstate d = (d, d).
Proof. intros (ND & _ & _ & _ & MK & _). unfold getstate. rewrite has_key_none by exact MK. reflexivity. Qed.

Lemma mini_same (d : fobj V) : same_but ["_fnevals_input"; "fit_output"] d (mini_state d).
Proof.
  intros k Hk. unfold mini_state. rewrite !attr_set_ne; [reflexivity|intros ->; apply Hk; simpl; auto|intros ->; apply Hk; simpl; auto].
Qed.
Lemma version_same v (d : fobj V) : same_but ["_RT1_version"] d (set "_RT1_version" v d).
Proof. intros k Hk. apply attr_set_ne. intros ->. apply Hk. simpl. auto. Qed.

(** the attributes that [update] may change *)
Definition update_keys : list string :=
  ["plot"; "verbose"; "fitset"; "lsq_kwargs"; "int_Q"; "lambda_backend"; "_fnevals_input"; "res_dict"].
Lemma pop_same a x (d : fobj V) k : k <> a -> k <> "lsq_kwargs" -> attr (pop_kw a x d) k = attr d k.
Proof.
  intros H1 H2. unfold pop_kw. destruct (has_key a d); [reflexivity|].
  destruct (get "lsq_kwargs" d) as [[]|]; try (apply attr_set_ne; exact H1).
  destruct (get a d0); [|apply attr_set_ne; exact H1]. rewrite attr_set_ne by exact H1. apply attr_set_ne. exact H2.
Qed.
Definition update0 (d0 : fobj V) : fobj V :=
  let d1 := if has_key "plot" d0 then d0 else set "plot" plots d0 in
  let d2 := if has_key "verbose" d1 then d1 else set "verbose" two d1 in
  let d3 := match get "fitset" d2 with Some v => del "fitset" (set "lsq_kwargs" v d2) | None => d2 end in
  let d4 := if has_key "lsq_kwargs" d3 then d3 else set "lsq_kwargs" (ADict []) d3 in
  let d5 := pop_kw "int_Q" true_ d4 in
  let d6 := pop_kw "lambda_backend" backend d5 in
  pop_kw "_fnevals_input" ANone d6.
Lemma update0_same d k : ~ In k ["plot"; "verbose"; "fitset"; "lsq_kwargs"; "int_Q"; "lambda_backend"; "_fnevals_input"] ->
  attr (update0 d) k = attr d k.
Proof.
  intro H. simpl in H. assert (k <> "plot" /\ k <> "verbose" /\ k <> "fitset" /\ k <> "lsq_kwargs" /\ k <> "int_Q" /\ k <> "lambda_backend" /\ k <> "_fnevals_input")
    as (H1 & H2 & H3 & H4 & H5 & H6 & H7) by (repeat split; intros ->; tauto).
  unfold update0. cbv zeta. rewrite !pop_same by assumption.
  match goal with |- context [has_key "lsq_kwargs" ?d3] => set (e3 := d3) end.
  transitivity (attr e3 k); [destruct (has_key "lsq_kwargs" e3); [reflexivity|apply attr_set_ne; assumption]|]. unfold e3.
  match goal with |- context [get "fitset" ?d2] => set (e2 := d2) end.
  transitivity (attr e2 k); [destruct (get "fitset" e2); [rewrite attr_del_ne by assumption; apply attr_set_ne; assumption|reflexivity]|]. unfold e2.
  match goal with |- context [has_key "verbose" ?d1] => set (e1 := d1) end.
  transitivity (attr e1 k); [destruct (has_key "verbose" e1); [reflexivity|apply attr_set_ne; assumption]|]. unfold e1.
  destruct (has_key "plot" d); [reflexivity|apply attr_set_ne; assumption].
Qed.
Lemma update_eq d : update d =
  match get "res_dict" (update0 d) with
  | Some (ADict rd) => if old_shape rd then set "res_dict" (ADict (new_shape rd)) (update0 d) else update0 d
  | _ => update0 d
  end.
Proof. reflexivity. Qed.
Lemma update_same d k : ~ In k update_keys -> attr (update d) k = attr d k.
Proof.
  intro H. rewrite update_eq. transitivity (attr (update0 d) k).
  - destruct (get "res_dict" (update0 d)) as [[]|]; try reflexivity. destruct (old_shape d0); [|reflexivity].
    apply attr_set_ne. intros ->. apply H. simpl. tauto.
  - apply update0_same. intro Hi. apply H. simpl in *. tauto.
Qed.
Lemma update_results d rd : attr d "res_dict" = Some (ADict rd) ->
  attr (update d) "res_dict" = Some (ADict (if old_shape rd then new_shape rd else rd)).
Proof.
  intro H. rewrite update_eq. assert (E : get "res_dict" (update0 d) = Some (ADict rd)).
  { change (attr (update0 d) "res_dict" = Some (ADict rd)). rewrite update0_same by (simpl; intuition discriminate). exact H. }
  rewrite E. destruct (old_shape rd); [apply attr_set_eq|exact E].
Qed.
End Dmp.
