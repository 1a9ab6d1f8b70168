From Coq Require Import String List Arith Bool Lia.
From Verif Require Import Base Base_Proofs Evf_Model Evf_Spec.
Import ListNotations.
Local Open Scope list_scope.

Section Proofs.
Context {Ds Obj : Type}.
Variable sorted : Ds -> Ds.
Variable is_empty : Ds -> bool.
Variables no_lsq backend no_defs : val Ds Obj.
Variable fnevals : list (val Ds Obj) -> val Ds Obj.
Variable lsq_fit : list (val Ds Obj) -> val Ds Obj -> val Ds Obj -> res (val Ds Obj).
Notation performfit := (performfit fnevals lsq_fit).
Notation perform_all := (perform_all fnevals lsq_fit).
Notation init := (init sorted no_lsq backend no_defs).
Notation reinit_object := (reinit_object sorted no_lsq backend no_defs).
Notation eval_fit := (eval_fit sorted is_empty no_lsq backend no_defs fnevals lsq_fit).
Notation eval_multi := (eval_multi sorted is_empty fnevals lsq_fit).
Notation run_multi := (run_multi sorted is_empty fnevals lsq_fit).

Lemma split_ok (r : read Ds Obj) d (a : val Ds Obj) : split is_empty r = inl (d, a) ->
  returned_data r = Some d /\ is_empty d = false /\ returned_aux r = match a with VNone => None | _ => Some a end.
Proof.
  destruct r as [v|e]; [|discriminate]. cbn. destruct v as [| | | |d0|l|]; try discriminate.
  - destruct (is_empty d0) eqn:E; [discriminate|]. intros H. injection H as <- <-. auto.
  - destruct l as [|x l]; [discriminate|]. destruct x; try discriminate. destruct l as [|a0 [|b l]]; try discriminate.
    + destruct (is_empty d0) eqn:E; [discriminate|]. intros H. injection H as <- <-. destruct a0; auto.
    + destruct (is_empty d0) eqn:E; [discriminate|]. intros H. injection H as <- <-. destruct a0; auto.
Qed.

Lemma dget_set_eq k v (o : obj Ds Obj) : dget string_dec k (dset string_dec k v o) = Some v. Proof. apply dget_dset_same. Qed.
Lemma dget_set_ne k k' v (o : obj Ds Obj) : k <> k' -> dget string_dec k (dset string_dec k' v o) = dget string_dec k o. Proof. intros N. apply dget_dset_other. exact N. Qed.

Lemma perf_other o o' x k : performfit o = (o', x) -> k <> "_fnevals_input"%string -> k <> "res_dict"%string -> dget string_dec k o' = dget string_dec k o.
Proof.
  intros H N1 N2. unfold Evf_Model.performfit in H.
  destruct (mapM (fun k0 => getattr k0 o) definition) as [df|]; [|injection H as <- _; reflexivity].
  destruct (getattr "_fnevals_input" o) as [fn|]; [|injection H as <- _; reflexivity].
  destruct (getattr "dataset" o) as [ds|]; [|injection H as <- _; reflexivity].
  destruct (lsq_fit df _ ds) as [r|e]; injection H as <- _; rewrite ?dget_set_ne by assumption; reflexivity.
Qed.

(** ** construction *)
Lemma dget_update (l d : obj Ds Obj) k : NoDup (keys l) -> dget string_dec k (dupdate string_dec d l) = match dget string_dec k l with Some v => Some v | None => dget string_dec k d end.
Proof.
  unfold dupdate. revert d. induction l as [|[k' v] l IH]; intros d ND; [reflexivity|]. cbn [fold_left fst snd keys map] in *. inversion ND as [|? ? Hn ND']; subst.
  rewrite IH by exact ND'. cbn [dget]. destruct (string_dec k k') as [e|N].
  - subst k'. assert (E : dget string_dec k l = None) by (apply dget_none; exact Hn). rewrite E. apply dget_set_eq.
  - destruct (dget string_dec k l); [reflexivity|]. apply dget_set_ne. exact N.
Qed.

Lemma args_get (self : obj Ds Obj) ks l : mapM (fun k => do v <- getattr k self; Ok (k, v)) ks = Ok l ->
  forall k, dget string_dec k l = if in_dec string_dec k ks then dget string_dec k self else None.
Proof.
  revert l. induction ks as [|k0 ks IH]; intros l H k; cbn in H.
  - injection H as <-. reflexivity.
  - destruct (getattr k0 self) as [v|] eqn:E; [|discriminate]. cbn in H. destruct (mapM _ ks) as [l'|] eqn:E'; [|discriminate]. cbn in H. injection H as <-.
    assert (Ev : dget string_dec k0 self = Some v) by (unfold getattr in E; destruct (dget string_dec k0 self); congruence).
    cbn [dget]. destruct (string_dec k k0) as [e|N].
    + subst. destruct (in_dec string_dec k0 (k0 :: ks)) as [_|X]; [congruence|]. exfalso. apply X. left. reflexivity.
    + rewrite (IH l' eq_refl k). destruct (in_dec string_dec k ks) as [j|j], (in_dec string_dec k (k0 :: ks)) as [i|i]; try reflexivity.
      * exfalso. apply i. right. assumption.
      * exfalso. destruct i as [i|i]; [congruence|contradiction].
Qed.

Lemma dget_app (a b : obj Ds Obj) k : dget string_dec k (a ++ b) = match dget string_dec k a with Some v => Some v | None => dget string_dec k b end.
Proof. induction a as [|[k' v] a IH]; [reflexivity|]. cbn. destruct (string_dec k k'); [reflexivity|exact IH]. Qed.

(** the arguments of the new object *)
Lemma reinit_spec self sf sa kw o : NoDup (keys kw) -> reinit_object self sf sa kw = Ok o ->
  exists args, (forall k, dget string_dec k args = match dget string_dec k kw with Some v => Some v | None =>
      if in_dec string_dec k shared then dget string_dec k self else if string_dec k "_fnevals_input" then Some VNone else None end) /\
  o = match dget string_dec "aux_data"%string self with Some a => dset string_dec "aux_data"%string a (init args) | None => init args end.
Proof.
  intros ND H. unfold Evf_Model.reinit_object, reinit_ in H. cbn [bind] in H.
  destruct (mapM _ shared) as [l|] eqn:E; [|discriminate]. cbn [bind] in H. injection H as <-.
  exists (dupdate string_dec (l ++ [("_fnevals_input"%string, VNone)]) kw). split; [|reflexivity].
  intros k. rewrite dget_update by exact ND. destruct (dget string_dec k kw); [reflexivity|]. rewrite dget_app, (args_get _ _ _ E).
  destruct (in_dec string_dec k shared) as [i|i].
  - destruct (dget string_dec k self) eqn:Ek; [reflexivity|]. exfalso. clear - E i Ek. revert l E. induction shared as [|k0 ks IH]; intros l E; [destruct i|]. cbn in E.
    destruct (getattr k0 self) eqn:E0; [|discriminate]. cbn in E. destruct (mapM _ ks) eqn:E1; [|discriminate]. destruct i as [->|i]; [unfold getattr in E0; rewrite Ek in E0; discriminate|]. exact (IH i _ eq_refl).
  - cbn. destruct (string_dec k "_fnevals_input"); reflexivity.
Qed.

Lemma init_aux args : dget string_dec "aux_data"%string (init args) = None. Proof. reflexivity. Qed.

(** ** one feature, Fits *)
Lemma eval_fit_spec kw parent ra ID r h : eval_fit kw parent ra ID r = inl h ->
  exists d a, split is_empty r = inl (d, a) /\ h_ID h = ID /\ h_reader_arg h = ra /\ h_dataset h = VFrame (sorted d) /\
    h_aux h = hdf_aux kw (match a with VNone => dget string_dec "aux_data"%string parent | _ => Some a end).
Proof.
  unfold Evf_Model.eval_fit. destruct (split is_empty r) as [[d a]|f] eqn:Es; [|discriminate].
  destruct (reinit_object parent true true _) as [o|e] eqn:Eo; [|discriminate].
  apply reinit_spec in Eo; [|repeat constructor; cbn; intuition discriminate]. destruct Eo as (args & Ha & ->).
  set (o := match dget string_dec "aux_data"%string parent with Some a0 => _ | None => _ end).
  assert (Hds : dget string_dec "dataset"%string o = Some (VFrame (sorted d)) /\ dget string_dec "ID"%string o = Some ID /\ dget string_dec "aux_data"%string o = dget string_dec "aux_data"%string parent).
  { assert (X : dget string_dec "dataset"%string (init args) = Some (VFrame (sorted d)) /\ dget string_dec "ID"%string (init args) = Some ID).
    { unfold Evf_Model.init, arg. rewrite (Ha "dataset"%string), (Ha "ID"%string). split; reflexivity. }
    unfold o. destruct (dget string_dec "aux_data"%string parent); [rewrite !dget_set_ne, dget_set_eq by discriminate|]; tauto. }
  clearbody o. clear Ha args. destruct Hds as (H1 & H2 & H3).
  destruct (performfit (dset string_dec "reader_arg"%string ra o)) as [o' [[]|e]] eqn:Ep; [|discriminate].
  pose proof (perf_other _ _ _ "dataset"%string Ep ltac:(discriminate) ltac:(discriminate)) as P1. pose proof (perf_other _ _ _ "ID"%string Ep ltac:(discriminate) ltac:(discriminate)) as P2.
  pose proof (perf_other _ _ _ "aux_data"%string Ep ltac:(discriminate) ltac:(discriminate)) as P3. pose proof (perf_other _ _ _ "reader_arg"%string Ep ltac:(discriminate) ltac:(discriminate)) as P4.
  rewrite dget_set_ne in P1, P2, P3 by discriminate. rewrite dget_set_eq in P4. rewrite H1 in P1. rewrite H2 in P2. rewrite H3 in P3.
  set (o2 := match a with VNone => o' | _ => dset string_dec "aux_data"%string a o' end).
  assert (Q : dget string_dec "dataset"%string o2 = Some (VFrame (sorted d)) /\ dget string_dec "ID"%string o2 = Some ID /\ dget string_dec "reader_arg"%string o2 = Some ra /\ dget string_dec "aux_data"%string o2 = match a with VNone => dget string_dec "aux_data"%string parent | _ => Some a end).
  { unfold o2. destruct a; [tauto|..]; rewrite !dget_set_ne, dget_set_eq by discriminate; tauto. }
  destruct Q as (Q1 & Q2 & Q3 & Q4). clearbody o2. unfold hdf_fit, getn. rewrite Q1, Q2, Q3, Q4. destruct (unknown hdf_args kw); [discriminate|]. intros H. injection H as <-. exists d, a. cbn [h_ID h_reader_arg h_dataset h_aux]. auto.
Qed.

(** ** one feature, MultiFits *)
Lemma perform_fst l l' x : perform_all l = (l', x) -> map fst l' = map fst l /\ Forall2 (fun c c' => forall k, k <> "_fnevals_input"%string -> k <> "res_dict"%string -> dget string_dec k (snd c') = dget string_dec k (snd c)) l l'.
Proof.
  revert l' x. induction l as [|[n o] l IH]; intros l' x H; cbn in H; [injection H as <- _; split; [reflexivity|constructor]|].
  destruct (performfit o) as [o' y] eqn:E. assert (P : forall k, k <> "_fnevals_input"%string -> k <> "res_dict"%string -> dget string_dec k o' = dget string_dec k o) by (intros k; eapply perf_other; exact E).
  destruct y as [[]|e].
  - destruct (perform_all l) as [r z]. injection H as <- <-. destruct (IH _ _ eq_refl) as [I1 I2]. split; [cbn; f_equal; exact I1|]. constructor; assumption.
  - injection H as <- _. split; [reflexivity|]. constructor; [exact P|]. clear. induction l; constructor; auto.
Qed.

(** the auxiliary data after a feature *)
Definition step_aux (r : read Ds Obj) : option (val Ds Obj) := match split is_empty r with inl (_, VNone) => None | inl (_, a) => Some a | inr _ => None end.

Lemma eval_multi_aux kw m ra ID r : m_aux (fst (eval_multi kw m ra ID r)) = match step_aux r with Some a => a | None => m_aux m end.
Proof.
  unfold Evf_Model.eval_multi, step_aux. destruct (split is_empty r) as [[d a]|f]; [|reflexivity].
  set (m1 := match a with VNone => _ | _ => _ end). assert (E : m_aux m1 = match a with VNone => m_aux m | _ => a end) by (unfold m1; destruct a; reflexivity).
  assert (E' : match match a with VNone => None | _ => Some a end with Some a0 => a0 | None => m_aux m end = m_aux m1) by (rewrite E; destruct a; reflexivity). rewrite E'. clearbody m1.
  destruct (perform_all _) as [l [[]|e]]; [|reflexivity]. destruct (hdf_multi kw _) as [h|e]; reflexivity.
Qed.

Lemma eval_multi_hdf kw m ra ID r h : snd (eval_multi kw m ra ID r) = inl h ->
  exists d a, split is_empty r = inl (d, a) /\ (m_cfg m <> [] -> h_ID h = ID) /\ h_reader_arg h = ra /\ h_dataset h = VFrame (sorted d) /\
    h_aux h = hdf_aux kw (Some (match step_aux r with Some a => a | None => m_aux m end)).
Proof.
  intros H. pose proof (eval_multi_aux kw m ra ID r) as Ha. unfold Evf_Model.eval_multi in H, Ha. destruct (split is_empty r) as [[d a]|f] eqn:Es; [|discriminate].
  set (m1 := match a with VNone => _ | _ => _ end) in *. assert (E : m_dataset m1 = VFrame (sorted d) /\ map fst (m_cfg m1) = map fst (m_cfg m)).
  { unfold m1. destruct a; cbn; unfold set_all; rewrite ?map_map; split; try reflexivity; cbn [fst]; reflexivity. }
  clearbody m1. destruct (perform_all (m_cfg (set_ID ID (set_reader_arg ra m1)))) as [l x] eqn:Ep. destruct x as [[]|e]; [|discriminate].
  destruct (hdf_multi kw _) as [h'|e] eqn:Eh; [|discriminate]. cbn [snd] in H. injection H as ->. exists d, a. split; [reflexivity|].
  unfold hdf_multi in Eh. destruct (unknown _ kw); [discriminate|]. injection Eh as <-. cbn [h_ID h_reader_arg h_dataset h_aux m_cfg m_dataset m_aux m_reader_arg set_ID set_reader_arg] in *.
  cbn [fst m_aux] in Ha. rewrite Ha. split; [|split; [reflexivity|split; [tauto|reflexivity]]].
  intros Hn. destruct (perform_fst _ _ _ Ep) as [F1 F2]. destruct l as [|c l].
  - exfalso. apply Hn. destruct E as [_ E]. unfold set_all in F1. rewrite !map_map in F1. cbn [fst] in F1. destruct (m_cfg m1); [|discriminate]. destruct (m_cfg m); [reflexivity|discriminate].
  - inversion F2 as [|c0 ? l0 ? Hc Hq Hl]. unfold getn. rewrite Hc by discriminate. destruct (set_all "reader_arg" ra (m_cfg m1)) as [|c1 l1]; [discriminate|]. cbn in Hl. injection Hl as -> _. cbn [snd]. rewrite dget_set_eq. reflexivity.
Qed.

Lemma run_multi_nth kw l m i ra ID r : nth_error l i = Some (ra, ID, r) ->
  nth_error (snd (run_multi kw m l)) i = Some (snd (eval_multi kw (fst (run_multi kw m (firstn i l))) ra ID r)).
Proof.
  revert m i. induction l as [|[[ra0 ID0] r0] l IH]; intros m i H; [destruct i; discriminate|].
  cbn [Evf_Model.run_multi]. destruct (eval_multi kw m ra0 ID0 r0) as [m1 h1] eqn:E1. destruct (run_multi kw m1 l) as [m2 hs] eqn:E2. cbn [snd].
  destruct i as [|i]; cbn in H.
  - injection H as -> -> ->. cbn. rewrite E1. reflexivity.
  - cbn [nth_error firstn Evf_Model.run_multi]. rewrite E1. specialize (IH m1 i H). rewrite E2 in IH. cbn [snd] in IH. rewrite IH. destruct (run_multi kw m1 (firstn i l)) as [m3 hs3]. reflexivity.
Qed.

Lemma run_multi_aux kw l m : m_aux (fst (run_multi kw m l)) = latest (m_aux m) (map (fun x => step_aux (snd x)) l).
Proof.
  revert m. induction l as [|[[ra ID] r] l IH]; intros m; [reflexivity|]. cbn [Evf_Model.run_multi map latest snd].
  pose proof (eval_multi_aux kw m ra ID r) as E. destruct (eval_multi kw m ra ID r) as [m1 h1]. specialize (IH m1). destruct (run_multi kw m1 l) as [m2 hs]. cbn [fst] in *. rewrite IH, E. destruct (step_aux r); reflexivity.
Qed.

(** ** independence of the history *)
Definition fn_of (o : obj Ds Obj) : option (val Ds Obj) :=
  match mapM (fun k => getattr k o) definition, dget string_dec "_fnevals_input"%string o with
  | Ok df, Some fn => Some (match dget string_dec "int_Q"%string o, fn with Some (VBool true), VNone => fnevals df | _, _ => fn end)
  | _, x => x
  end.
Definition rel (o o' : obj Ds Obj) : Prop := (forall k, In k definition -> dget string_dec k o = dget string_dec k o') /\ fn_of o = fn_of o'.

Lemma defs_ext (o o' : obj Ds Obj) : (forall k, In k definition -> dget string_dec k o = dget string_dec k o') -> mapM (fun k => getattr k o) definition = mapM (fun k => getattr k o') definition.
Proof.
  generalize definition. intros l. induction l as [|k l IH]; intros H; [reflexivity|]. cbn. unfold getattr at 1 3. rewrite (H k) by (left; reflexivity). rewrite IH; [reflexivity|]. intros k' Hk. apply H. right. exact Hk.
Qed.
Lemma fn_ext (o o' : obj Ds Obj) : (forall k, In k definition -> dget string_dec k o = dget string_dec k o') -> dget string_dec "_fnevals_input"%string o = dget string_dec "_fnevals_input"%string o' -> fn_of o = fn_of o'.
Proof. intros H E. unfold fn_of. rewrite (defs_ext o o' H), E, (H "int_Q"%string) by (cbn; tauto). reflexivity. Qed.
Lemma rel_set o o' k v : rel o o' -> ~ In k definition -> k <> "_fnevals_input"%string -> rel (dset string_dec k v o) (dset string_dec k v o').
Proof.
  intros [H1 H2] N1 N2. assert (D : forall (x : obj Ds Obj) k', In k' definition -> dget string_dec k' (dset string_dec k v x) = dget string_dec k' x) by (intros x k' Hk; apply dget_set_ne; congruence).
  split; [intros k' Hk; rewrite !D by exact Hk; auto|].
  rewrite (fn_ext (dset string_dec k v o) o), (fn_ext (dset string_dec k v o') o'); auto; apply dget_set_ne; congruence.
Qed.
Lemma rel_set_r o o' k v : rel o o' -> ~ In k definition -> k <> "_fnevals_input"%string -> rel o (dset string_dec k v o').
Proof.
  intros [H1 H2] N1 N2. assert (D : forall (x : obj Ds Obj) k', In k' definition -> dget string_dec k' (dset string_dec k v x) = dget string_dec k' x) by (intros x k' Hk; apply dget_set_ne; congruence).
  split; [intros k' Hk; rewrite D by exact Hk; auto|]. rewrite (fn_ext (dset string_dec k v o') o'); auto; apply dget_set_ne; congruence.
Qed.
Lemma rel_refl o : rel o o. Proof. split; reflexivity. Qed.

Lemma perf_rel_r o o' o2 x : rel o o' -> performfit o' = (o2, x) -> rel o o2.
Proof.
  intros [H1 H2] H. unfold Evf_Model.performfit in H. unfold getattr in H at 2 3.
  destruct (mapM (fun k0 => getattr k0 o') definition) as [df|] eqn:Ed; [|injection H as <- _; split; assumption].
  destruct (dget string_dec "_fnevals_input"%string o') as [fn|] eqn:Ef; [|injection H as <- _; split; assumption].
  destruct (dget string_dec "dataset"%string o') as [ds|]; [|injection H as <- _; split; assumption].
  set (g := match dget string_dec "int_Q"%string o', fn with Some (VBool true), VNone => fnevals df | _, _ => fn end) in *.
  assert (R : rel o (dset string_dec "_fnevals_input"%string g o')).
  { assert (D : forall k', In k' definition -> dget string_dec k' (dset string_dec "_fnevals_input"%string g o') = dget string_dec k' o') by (intros k' Hk; apply dget_set_ne; intros ->; cbn in Hk; intuition discriminate).
    split; [intros k' Hk; rewrite D by exact Hk; auto|]. rewrite H2. unfold fn_of. rewrite (defs_ext _ o' D), (D "int_Q"%string) by (cbn; tauto). rewrite Ed, dget_set_eq, Ef. f_equal. fold g. unfold g.
    destruct (dget string_dec "int_Q"%string o') as [[| [|] | | | | |]|], fn; try reflexivity; destruct (fnevals df); reflexivity. }
  destruct (lsq_fit df g ds) as [r|e]; injection H as <- _; [|exact R]. apply rel_set_r; [exact R|cbn; intuition discriminate|discriminate].
Qed.

(** the outcome of a fit *)
Definition outcome (o : obj Ds Obj) : res (val Ds Obj) := match performfit o with (o', Ok _) => getattr "res_dict" o' | (_, Err e) => Err e end.
Lemma outcome_rel o o' : rel o o' -> dget string_dec "dataset"%string o = dget string_dec "dataset"%string o' -> outcome o = outcome o'.
Proof.
  intros [H1 H2] Hd. unfold outcome, Evf_Model.performfit. unfold fn_of in H2. rewrite (defs_ext o o' H1) in *. unfold getattr at 2 3 6 7. rewrite Hd, (H1 "int_Q"%string) in * by (cbn; tauto).
  destruct (mapM (fun k => getattr k o') definition) as [df|e]; [|reflexivity].
  destruct (dget string_dec "_fnevals_input"%string o) as [fn|], (dget string_dec "_fnevals_input"%string o') as [fn'|]; try discriminate; [|reflexivity].
  injection H2 as H2. rewrite H2. destruct (dget string_dec "dataset"%string o') as [ds|]; [|reflexivity]. destruct (lsq_fit df _ ds) as [r|e]; [|reflexivity]. unfold getattr. rewrite !dget_set_eq. reflexivity.
Qed.
Lemma outcome_perf o o' x : performfit o = (o', x) -> match outcome o with Ok r => x = Ok tt /\ getn "res_dict" o' = r | Err e => x = Err e end.
Proof.
  unfold outcome. intros H. rewrite H. destruct x as [[]|e]; [|reflexivity]. unfold getattr, getn.
  unfold Evf_Model.performfit in H. destruct (mapM _ definition) as [df|]; [|discriminate]. destruct (getattr "_fnevals_input" o) as [fn|]; [|discriminate]. destruct (getattr "dataset" o) as [ds|]; [|discriminate].
  destruct (lsq_fit df _ ds) as [r|e]; [|discriminate]. injection H as <-. rewrite dget_set_eq. auto.
Qed.

Definition relc (c c' : string * obj Ds Obj) : Prop := fst c = fst c' /\ rel (snd c) (snd c').
Lemma set_all_rel k v l l' : ~ In k definition -> k <> "_fnevals_input"%string -> Forall2 relc l l' -> Forall2 relc (set_all k v l) (set_all k v l').
Proof. intros N1 N2 H. unfold set_all. induction H as [|c c' l l' [Hf Hr] H IH]; cbn; constructor; [|exact IH]. split; [exact Hf|]. apply rel_set; assumption. Qed.
Lemma set_all_rel_r k v l l' : ~ In k definition -> k <> "_fnevals_input"%string -> Forall2 relc l l' -> Forall2 relc l (set_all k v l').
Proof. intros N1 N2 H. unfold set_all. induction H as [|c c' l l' [Hf Hr] H IH]; cbn; constructor; [|exact IH]. split; [exact Hf|]. apply rel_set_r; assumption. Qed.
Lemma set_all_data k v (l : list (string * obj Ds Obj)) : Forall (fun c => dget string_dec k (snd c) = Some v) (set_all k v l).
Proof. unfold set_all. induction l as [|c l IH]; cbn; constructor; [apply dget_set_eq|exact IH]. Qed.
Lemma set_all_keep k k' v v' (l : list (string * obj Ds Obj)) : k <> k' -> Forall (fun c => dget string_dec k (snd c) = Some v) l -> Forall (fun c => dget string_dec k (snd c) = Some v) (set_all k' v' l).
Proof. intros N H. unfold set_all. induction H as [|c l Hc H IH]; cbn; [constructor|constructor; [cbn [snd]; rewrite dget_set_ne by exact N; exact Hc|exact IH]]. Qed.

Lemma perform_rel_r l l' l2 x : Forall2 relc l l' -> perform_all l' = (l2, x) -> Forall2 relc l l2.
Proof.
  intros H. revert l2 x. induction H as [|[n o] [n' o'] l l' [Hf Hr] H IH]; intros l2 x E; cbn in E; [injection E as <- _; constructor|].
  cbn [fst snd] in *. destruct (performfit o') as [o2 y] eqn:Ep. pose proof (perf_rel_r _ _ _ _ Hr Ep) as R. destruct y as [[]|e].
  - destruct (perform_all l') as [r z]. injection E as <- _. constructor; [split; assumption|]. eapply IH. reflexivity.
  - injection E as <- _. constructor; [split; assumption|exact H].
Qed.
Lemma perform_rel ds l l' : Forall2 relc l l' -> Forall (fun c => dget string_dec "dataset"%string (snd c) = Some ds) l -> Forall (fun c => dget string_dec "dataset"%string (snd c) = Some ds) l' ->
  forall l1 x l2 y, perform_all l = (l1, x) -> perform_all l' = (l2, y) -> x = y /\ (x = Ok tt -> map (fun c => getn "res_dict" (snd c)) l1 = map (fun c => getn "res_dict" (snd c)) l2).
Proof.
  intros H. induction H as [|[n o] [n' o'] l l' [Hf Hr] H IH]; intros D D' l1 x l2 y E E'; cbn in E, E'; [injection E as <- <-; injection E' as <- <-; auto|].
  inversion D as [|? ? D1 D2]; subst. inversion D' as [|? ? D1' D2']; subst. cbn [fst snd] in *.
  pose proof (outcome_rel _ _ Hr (eq_trans D1 (eq_sym D1'))) as O.
  destruct (performfit o) as [o1 z] eqn:Ep. destruct (performfit o') as [o1' z'] eqn:Ep'. pose proof (outcome_perf _ _ _ Ep) as P. pose proof (outcome_perf _ _ _ Ep') as P'. rewrite O in P.
  destruct (outcome o') as [r|e].
  - destruct P as [-> P], P' as [-> P']. destruct (perform_all l) as [l3 x3]. destruct (perform_all l') as [l4 x4]. injection E as <- <-. injection E' as <- <-.
    destruct (IH D2 D2' _ _ _ _ eq_refl eq_refl) as [I1 I2]. split; [exact I1|]. intros X. cbn [map snd]. rewrite I2 by exact X. congruence.
  - subst z z'. injection E as <- <-. injection E' as <- <-. split; [reflexivity|discriminate].
Qed.

Lemma eval_rel_r kw m m' ra ID r : Forall2 relc (m_cfg m) (m_cfg m') -> Forall2 relc (m_cfg m) (m_cfg (fst (eval_multi kw m' ra ID r))).
Proof.
  intros H. unfold Evf_Model.eval_multi. destruct (split is_empty r) as [[d a]|f]; [|exact H].
  set (m1 := match a with VNone => _ | _ => _ end).
  assert (H1 : Forall2 relc (m_cfg m) (m_cfg m1)).
  { assert (X : Forall2 relc (m_cfg m) (m_cfg (set_dataset sorted (VFrame d) m'))) by (apply set_all_rel_r; [cbn; intuition discriminate|discriminate|exact H]).
    unfold m1. destruct a; try exact X; apply set_all_rel_r; try exact X; try discriminate; cbn; intuition discriminate. }
  clearbody m1. assert (H2 : Forall2 relc (m_cfg m) (m_cfg (set_ID ID (set_reader_arg ra m1)))).
  { apply set_all_rel_r; [cbn; intuition discriminate|discriminate|]. apply set_all_rel_r; [cbn; intuition discriminate|discriminate|exact H1]. }
  destruct (perform_all (m_cfg (set_ID ID (set_reader_arg ra m1)))) as [l x] eqn:E. pose proof (perform_rel_r _ _ _ _ H2 E) as H3.
  destruct x as [[]|e]; [|exact H3]. destruct (hdf_multi kw _); exact H3.
Qed.
Lemma run_rel_r kw l m m' : Forall2 relc (m_cfg m) (m_cfg m') -> Forall2 relc (m_cfg m) (m_cfg (fst (run_multi kw m' l))).
Proof.
  revert m'. induction l as [|[[ra ID] r] l IH]; intros m' H; [exact H|]. cbn [Evf_Model.run_multi]. pose proof (eval_rel_r kw m m' ra ID r H) as H1. destruct (eval_multi kw m' ra ID r) as [m1 h1]. cbn [fst] in H1. specialize (IH m1 H1). destruct (run_multi kw m1 l). exact IH.
Qed.
Lemma relc_refl l : Forall2 relc l l. Proof. induction l; constructor; [split; [reflexivity|apply rel_refl]|assumption]. Qed.

Lemma eval_rel kw m m' ra ID r : Forall2 relc (m_cfg m) (m_cfg m') ->
  match snd (eval_multi kw m ra ID r), snd (eval_multi kw m' ra ID r) with
  | inl h, inl h' => same_but_aux h h'
  | inr f, inr f' => f = f'
  | _, _ => False
  end.
Proof.
  intros H. unfold Evf_Model.eval_multi. destruct (split is_empty r) as [[d a]|f]; [|reflexivity].
  set (m1 := match a with VNone => set_dataset sorted (VFrame d) m | _ => _ end). set (m1' := match a with VNone => set_dataset sorted (VFrame d) m' | _ => _ end).
  assert (H1 : Forall2 relc (m_cfg m1) (m_cfg m1') /\ m_dataset m1 = VFrame (sorted d) /\ m_dataset m1' = VFrame (sorted d) /\
     Forall (fun c => dget string_dec "dataset"%string (snd c) = Some (VFrame (sorted d))) (m_cfg m1) /\ Forall (fun c => dget string_dec "dataset"%string (snd c) = Some (VFrame (sorted d))) (m_cfg m1')).
  { assert (X : Forall2 relc (m_cfg (set_dataset sorted (VFrame d) m)) (m_cfg (set_dataset sorted (VFrame d) m'))) by (apply set_all_rel; [cbn; intuition discriminate|discriminate|exact H]).
    assert (Y : forall q : multi Ds Obj, Forall (fun c => dget string_dec "dataset"%string (snd c) = Some (VFrame (sorted d))) (m_cfg (set_dataset sorted (VFrame d) q))) by (intros q; apply set_all_data).
    unfold m1, m1'. destruct a; (split; [first [exact X|apply set_all_rel; [cbn; intuition discriminate|discriminate|exact X]]|split; [reflexivity|split; [reflexivity|split; first [apply Y|apply set_all_keep; [discriminate|apply Y]]]]]). }
  destruct H1 as (H1 & D & D' & F & F'). clearbody m1 m1'.
  set (m2 := set_ID ID (set_reader_arg ra m1)). set (m2' := set_ID ID (set_reader_arg ra m1')).
  assert (H2 : Forall2 relc (m_cfg m2) (m_cfg m2')).
  { apply set_all_rel; [cbn; intuition discriminate|discriminate|]. apply set_all_rel; [cbn; intuition discriminate|discriminate|exact H1]. }
  assert (F2 : Forall (fun c => dget string_dec "dataset"%string (snd c) = Some (VFrame (sorted d))) (m_cfg m2)) by (apply set_all_keep; [discriminate|]; apply set_all_keep; [discriminate|exact F]).
  assert (F2' : Forall (fun c => dget string_dec "dataset"%string (snd c) = Some (VFrame (sorted d))) (m_cfg m2')) by (apply set_all_keep; [discriminate|]; apply set_all_keep; [discriminate|exact F']).
  assert (I : forall q, Forall (fun c => dget string_dec "ID"%string (snd c) = Some ID) (m_cfg (set_ID ID q))) by (intros q; apply set_all_data).
  pose proof (I (set_reader_arg ra m1)) as I2. pose proof (I (set_reader_arg ra m1')) as I2'. fold m2 in I2. fold m2' in I2'.
  destruct (perform_all (m_cfg m2)) as [l x] eqn:E. destruct (perform_all (m_cfg m2')) as [l' x'] eqn:E'.
  destruct (perform_rel _ _ _ H2 F2 F2' _ _ _ _ E E') as [-> R]. destruct x' as [[]|e]; [|reflexivity].
  specialize (R eq_refl). unfold hdf_multi. destruct (unknown _ kw); [reflexivity|]. cbn [snd].
  split; [|split; [reflexivity|split; [cbn; congruence|cbn [h_res_dict h_res_df m_cfg]; rewrite R; split; reflexivity]]].
  cbn [h_ID m_cfg]. destruct (perform_fst _ _ _ E) as [_ P]. destruct (perform_fst _ _ _ E') as [_ P'].
  clearbody m2 m2'. destruct (m_cfg m2) as [|c0 q0], (m_cfg m2') as [|c0' q0']; inversion P as [X1 X2|c1 c2 q1 q2 Hc Hq X1 X2]; inversion P' as [Y1 Y2|c1' c2' q1' q2' Hc' Hq' Y1 Y2].
  - reflexivity.
  - exfalso. inversion H2.
  - exfalso. inversion H2.
  - unfold getn. rewrite Hc, Hc' by discriminate. inversion I2 as [|? ? Z1 _]. inversion I2' as [|? ? Z1' _]. rewrite Z1, Z1'. reflexivity.
Qed.
End Proofs.
