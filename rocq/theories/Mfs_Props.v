(** C160: attributes shared by the configurations of a MultiFits object *)
From Coq Require Import Arith Bool String List Lia.
From Verif Require Import Base Base_Proofs Mfs_Model.
Import ListNotations.
Local Open Scope string_scope.
Local Open Scope list_scope.

(** ** vocabulary *)
Section V.
Context {A : Type}.
(** the current value of an attribute of a MultiFits object, given what was done *)
Definition last_set (x0 : A) (ops : list (op A)) (sel : op A -> option A) : A :=
  fold_left (fun x o => match sel o with Some v => v | None => x end) ops x0.
Definition dataset_sel (check : A -> A) c (o : op A) : option A := match o with SetDataset q v => if Nat.eqb q c then Some (check v) else None | _ => None end.
Definition aux_sel c (o : op A) : option A := match o with SetAux q v => if Nat.eqb q c then Some v else None | _ => None end.
(** [n] is the name of a configuration of [c] *)
Definition has_config (ops : list (op A)) c n : Prop := exists o, In (Add c n o) ops.
(** every fit object belongs to one MultiFits object *)
Definition owned (ops : list (op A)) : Prop := forall c n o c' n', In (Add c n o) ops -> In (Add c' n' o) ops -> c = c'.
(** the attributes of the fit objects in use are not set directly *)
Definition untouched (ops : list (op A)) (k : string) : Prop := forall o v, ~ In (FitSet o k v) ops.
End V.

Section P.
Context {A : Type} (check idf : A -> A) (args : nat -> A * A * A) (fs0 : nat -> dict string A).
Notation run := (run check idf args fs0).
Notation step := (step check idf).
Lemma run_app ops x : run (ops ++ [x]) = step (run ops) x.
Proof. unfold run. now rewrite fold_left_app. Qed.

(** names and fits of the containers *)
Lemma run_names ops c : (forall n, In n (m_names (s_multi (run ops) c)) <-> has_config ops c n) /\
  (forall n, has_config ops c n -> exists o, dget string_dec n (m_fit (s_multi (run ops) c)) = Some o) /\
  (forall n o, dget string_dec n (m_fit (s_multi (run ops) c)) = Some o -> In (Add c n o) ops).
Proof.
  induction ops as [|x l (IH1 & IH2 & IH3)] using rev_ind.
  - unfold run, init. cbn. destruct (args c) as [[d a] r]. cbn. unfold has_config. cbn. repeat split; try tauto; try discriminate; intros; try (now destruct H).
  - rewrite run_app.
    assert (NA : (forall n o, x <> Add c n o) -> m_names (s_multi (step (run l) x) c) = m_names (s_multi (run l) c) /\ m_fit (s_multi (step (run l) x) c) = m_fit (s_multi (run l) c)).
    { intros N. destruct x as [q n o|q v|q v|q v|q v|q n v]; cbn [Mfs_Model.step s_multi]; unfold upd; try (destruct (Nat.eqb_spec c q) as [<-|]; auto).
      destruct (N n o eq_refl). }
    assert (HC : forall n, has_config (l ++ [x]) c n <-> has_config l c n \/ exists o, x = Add c n o).
    { intros n. unfold has_config. split.
      - intros [o I]. apply in_app_or in I. destruct I as [I|[I|[]]]; [left; now exists o|right; now exists o].
      - intros [[o I]|[o ->]]; exists o; apply in_or_app; [now left|right; now left]. }
    assert (DA : (exists n o, x = Add c n o) \/ forall n o, x <> Add c n o).
    { destruct x as [q n o|q v|q v|q v|q v|q n v]; try (right; discriminate). destruct (Nat.eq_dec q c) as [->|N]; [left; eauto|right; congruence]. }
    destruct DA as [(n & o & ->)|N].
    + cbn [Mfs_Model.step s_multi]. unfold upd. rewrite Nat.eqb_refl. cbn [m_names m_fit]. split; [|split].
      * intros k. rewrite in_app_iff, IH1, HC. cbn [In]. split.
        -- intros [H|[->|[]]]; [now left|right; now exists o].
        -- intros [H|[o' H]]; [now left|right; left]. congruence.
      * intros k H. destruct (string_dec k n) as [->|D]; [exists o; apply dget_dset_same|]. rewrite dget_dset_other by congruence. apply IH2.
        apply HC in H. destruct H as [H|[o' H]]; [exact H|congruence].
      * intros k o'. destruct (string_dec k n) as [->|D].
        -- rewrite dget_dset_same. intros [= <-]. apply in_or_app. right. now left.
        -- rewrite dget_dset_other by congruence. intros H. apply in_or_app. left. now apply IH3.
    + destruct (NA N) as [-> ->]. split; [|split].
      * intros k. rewrite IH1, HC. split; [now left|]. intros [H|[o H]]; [exact H|now destruct (N k o)].
      * intros k H. apply IH2. apply HC in H. destruct H as [H|[o H]]; [exact H|now destruct (N k o)].
      * intros k o H. apply in_or_app. left. now apply IH3.
Qed.

(** setting an attribute on all configurations *)
Lemma set_all_same (m : multi A) k v fs o n : In n (m_names m) -> dget string_dec n (m_fit m) = Some o -> dget string_dec k (set_all m k v fs o) = Some v.
Proof.
  intros I D. unfold set_all. assert (G : forall l (fs : nat -> dict string A), dget string_dec k (fs o) = Some v \/ In n l ->
    dget string_dec k (fold_left (fun fs n => match dget string_dec n (m_fit m) with Some o => setattr fs o k v | None => fs end) l fs o) = Some v).
  { clear fs I. induction l as [|a l IH]; intros fs [H|H]; [exact H|destruct H| |]; cbn [fold_left]; apply IH.
    - left. destruct (dget string_dec a (m_fit m)) as [q|]; [|exact H]. unfold setattr, upd. destruct (Nat.eqb_spec o q) as [<-|]; [apply dget_dset_same|exact H].
    - destruct H as [->|H]; [left|now right]. rewrite D. unfold setattr, upd. rewrite Nat.eqb_refl. apply dget_dset_same. }
  apply G. now right.
Qed.
Lemma set_all_other (m : multi A) k v fs o j : (k <> j \/ forall n, dget string_dec n (m_fit m) <> Some o) -> dget string_dec j (set_all m k v fs o) = dget string_dec j (fs o).
Proof.
  intros H. unfold set_all. revert fs. induction (m_names m) as [|a l IH]; intros fs; [reflexivity|]. cbn [fold_left]. rewrite IH.
  destruct (dget string_dec a (m_fit m)) as [q|] eqn:E; [|reflexivity]. unfold setattr, upd. destruct (Nat.eqb_spec o q) as [<-|]; [|reflexivity].
  destruct H as [H|H]; [|now destruct (H a)]. apply dget_dset_other. congruence.
Qed.
Lemma setattr_get (fs : nat -> dict string A) o k v q j : dget string_dec j (setattr fs o k v q) = if Nat.eqb q o then if string_dec j k then Some v else dget string_dec j (fs q) else dget string_dec j (fs q).
Proof.
  unfold setattr, upd. destruct (Nat.eqb_spec q o) as [->|]; [|reflexivity]. destruct (string_dec j k) as [->|N]; [apply dget_dset_same|]. apply dget_dset_other. congruence.
Qed.

(** the invariant for an attribute [k] that is assigned in add_config and set by one of the methods *)
Definition shares (k : string) (val : multi A -> A) (s : state A) : Prop :=
  forall c n o, dget string_dec n (m_fit (s_multi s c)) = Some o -> dget string_dec k (s_fit s o) = Some (val (s_multi s c)).
(** the value given by add_config *)
Lemma shares_run (idem : forall v, check (check v) = check v) ops : owned ops ->
  (untouched ops "dataset" -> shares "dataset" m_dataset (run ops) /\ forall c, check (m_dataset (s_multi (run ops) c)) = m_dataset (s_multi (run ops) c)) /\
  (untouched ops "aux_data" -> shares "aux_data" m_aux (run ops)).
Proof.
  intros OW. induction ops as [|x l IH] using rev_ind.
  - unfold shares, run, init. cbn. split; [intros _; split|intros _].
    + intros c n o. destruct (args c) as [[d a] r]. discriminate.
    + intros c. destruct (args c) as [[d a] r]. cbn. apply idem.
    + intros c n o. destruct (args c) as [[d a] r]. discriminate.
  - assert (OW' : owned l) by (intros c n o c' n' H H'; apply (OW c n o c' n'); apply in_or_app; now left).
    assert (UN : forall k, untouched (l ++ [x]) k -> untouched l k /\ forall o v, x <> FitSet o k v).
    { intros k U. split; [intros o v I; apply (U o v), in_or_app; now left|intros o v ->; apply (U o v), in_or_app; right; now left]. }
    destruct (IH OW') as [IHd IHa]. clear IH. rewrite run_app.
    assert (ON : forall c n o, dget string_dec n (m_fit (s_multi (run l) c)) = Some o -> In (Add c n o) l) by (intros c; apply run_names).
    assert (NM : forall c n o, dget string_dec n (m_fit (s_multi (run l) c)) = Some o -> In n (m_names (s_multi (run l) c))).
    { intros c n o H. apply run_names. exists o. now apply ON. }
    set (s := run l) in *. clearbody s.
    assert (DIS : forall c q n o, c <> q -> dget string_dec n (m_fit (s_multi s c)) = Some o -> forall n', dget string_dec n' (m_fit (s_multi s q)) <> Some o).
    { intros c q n o N H n' H'. apply N. apply (OW c n o q n'); apply in_or_app; left; now apply ON. }
    (* the attribute [k] with the value [val] after setting all of [q] to [v] *)
    assert (SA : forall k j v (val : multi A -> A) q m', m_fit m' = m_fit (s_multi s q) -> shares j val s ->
       (j = k -> val m' = v) -> (j <> k -> val m' = val (s_multi s q)) ->
       shares j val (mkstate _ (upd (s_multi s) q m') (set_all (s_multi s q) k v (s_fit s)))).
    { intros k j v val q m' F H E1 E2 c n o. cbn [s_multi s_fit]. unfold upd. destruct (Nat.eqb_spec c q) as [->|N].
      - rewrite F. intros D. destruct (string_dec j k) as [->|NE].
        + rewrite E1 by reflexivity. apply (set_all_same _ k v _ o n); [now apply (NM _ _ o)|exact D].
        + rewrite set_all_other by (left; congruence). rewrite (H q n o D). now rewrite E2.
      - intros D. rewrite set_all_other by (right; intros n' D'; now apply (DIS c q n o N D n')). now apply (H c n). }
    destruct x as [q n o|q v|q v|q v|q v|q k v]; cbn [Mfs_Model.step].
    + (* add_config *)
      assert (DIS2 : forall c k o', c <> q -> dget string_dec k (m_fit (s_multi s c)) = Some o' -> o' <> o).
      { intros c k o' N D ->. apply N. apply (OW c k o q n); apply in_or_app; [left; now apply ON|right; now left]. }
      split.
      * intros U. apply UN in U. destruct U as [U _]. destruct (IHd U) as [H I]. split.
        -- intros c k o'. cbn [s_multi s_fit]. unfold upd. destruct (Nat.eqb_spec c q) as [->|N]; cbn [m_fit m_dataset].
           ++ intros D. rewrite !setattr_get. destruct (Nat.eqb_spec o' o) as [->|NO]; [cbn; now rewrite I|].
              destruct (string_dec k n) as [->|NK]; [rewrite dget_dset_same in D; congruence|]. rewrite dget_dset_other in D by congruence. now apply (H q k).
           ++ intros D. rewrite !setattr_get. destruct (Nat.eqb_spec o' o) as [->|NO]; [now destruct (DIS2 c k o N D)|]. now apply (H c k).
        -- intros c. cbn [s_multi]. unfold upd. destruct (Nat.eqb_spec c q) as [->|N]; cbn [m_dataset]; apply I.
      * intros U. apply UN in U. destruct U as [U _]. pose proof (IHa U) as H.
        intros c k o'. cbn [s_multi s_fit]. unfold upd. destruct (Nat.eqb_spec c q) as [->|N]; cbn [m_fit m_aux].
        -- intros D. rewrite !setattr_get. destruct (Nat.eqb_spec o' o) as [->|NO]; [reflexivity|].
           destruct (string_dec k n) as [->|NK]; [rewrite dget_dset_same in D; congruence|]. rewrite dget_dset_other in D by congruence. now apply (H q k).
        -- intros D. rewrite !setattr_get. destruct (Nat.eqb_spec o' o) as [->|NO]; [now destruct (DIS2 c k o N D)|]. now apply (H c k).
    + split.
      * intros U. apply UN in U. destruct U as [U _]. destruct (IHd U) as [H I]. split; [apply SA; auto; try reflexivity; congruence|].
        intros c. cbn [s_multi]. unfold upd. destruct (Nat.eqb_spec c q) as [->|N]; cbn [m_dataset]; [apply idem|apply I].
      * intros U. apply UN in U. destruct U as [U _]. apply SA; auto; try reflexivity; discriminate.
    + split.
      * intros U. apply UN in U. destruct U as [U _]. destruct (IHd U) as [H I]. split; [apply SA; auto; try reflexivity; discriminate|].
        intros c. cbn [s_multi]. unfold upd. destruct (Nat.eqb_spec c q) as [->|N]; cbn [m_dataset]; apply I.
      * intros U. apply UN in U. destruct U as [U _]. apply SA; auto; try reflexivity; congruence.
    + split.
      * intros U. apply UN in U. destruct U as [U _]. destruct (IHd U) as [H I]. split; [apply SA; auto; try reflexivity; discriminate|].
        intros c. cbn [s_multi]. unfold upd. destruct (Nat.eqb_spec c q) as [->|N]; cbn [m_dataset]; apply I.
      * intros U. apply UN in U. destruct U as [U _]. apply SA; auto; try reflexivity; discriminate.
    + split.
      * intros U. apply UN in U. destruct U as [U _]. destruct (IHd U) as [H I]. split; [|exact I].
        intros c n o D. cbn in *. rewrite set_all_other by (left; discriminate). now apply (H c n).
      * intros U. apply UN in U. destruct U as [U _]. pose proof (IHa U) as H. intros c n o D. cbn in *. rewrite set_all_other by (left; discriminate). now apply (H c n).
    + split.
      * intros U. apply UN in U. destruct U as [U N]. destruct (IHd U) as [H I]. split; [|exact I]. intros c n o D. cbn [s_multi s_fit] in *. rewrite setattr_get.
        destruct (Nat.eqb o q); [|now apply (H c n)]. destruct (string_dec "dataset" k) as [<-|]; [now destruct (N q v)|]. now apply (H c n).
      * intros U. apply UN in U. destruct U as [U N]. pose proof (IHa U) as H. intros c n o D. cbn [s_multi s_fit] in *. rewrite setattr_get.
        destruct (Nat.eqb o q); [|now apply (H c n)]. destruct (string_dec "aux_data" k) as [<-|]; [now destruct (N q v)|]. now apply (H c n).
Qed.
(** the values of the containers *)
Lemma multi_values ops c : m_dataset (s_multi (run ops) c) = last_set (check (fst (fst (args c)))) ops (dataset_sel check c) /\ m_aux (s_multi (run ops) c) = last_set (snd (fst (args c))) ops (aux_sel c).
Proof.
  induction ops as [|x l [IH1 IH2]] using rev_ind; [unfold run, init; cbn; destruct (args c) as [[d a] r]; split; reflexivity|].
  rewrite run_app. unfold last_set in *. rewrite !fold_left_app. cbn [fold_left]. rewrite <- IH1, <- IH2. set (s := run l). clearbody s.
  destruct x as [q n o|q v|q v|q v|q v|q n v]; cbn; unfold upd; try (split; reflexivity); rewrite (Nat.eqb_sym q c) || idtac; destruct (Nat.eqb_spec c q) as [<-|]; split; reflexivity.
Qed.
(** after setting an attribute on all, as long as no configuration is added or changed directly *)
Lemma kept k v s ops c n : (exists o, dget string_dec n (m_fit (s_multi s c)) = Some o /\ In n (m_names (s_multi s c)) /\ dget string_dec k (s_fit s o) = Some v) ->
  k <> "dataset" -> k <> "aux_data" -> (forall c' n' o', In (Add c' n' o') ops -> c' <> c) ->
  (forall q w, In (SetReader q w) ops -> k <> "reader_arg") -> (forall q w, In (SetID q w) ops -> k <> "ID") -> (forall o w, ~ In (FitSet o k w) ops) ->
  let s' := fold_left step ops s in
  exists o, dget string_dec n (m_fit (s_multi s' c)) = Some o /\ In n (m_names (s_multi s' c)) /\ dget string_dec k (s_fit s' o) = Some v.
Proof.
  intros (o & D & I & G) K1 K2 HA HR HI HF. cbn zeta. exists o. induction ops as [|x l IH] using rev_ind; [auto|].
  destruct IH as (D' & I' & G'); [intros c' n' o' Hx; apply (HA c' n' o'), in_or_app; now left|intros q w Hx; apply (HR q w), in_or_app; now left|intros q w Hx; apply (HI q w), in_or_app; now left|intros q w Hx; apply (HF q w), in_or_app; now left|].
  rewrite fold_left_app. cbn [fold_left]. set (s' := fold_left step l s) in *. clearbody s'.
  assert (L : In x (l ++ [x])) by (apply in_or_app; right; now left).
  destruct x as [q m p|q w|q w|q w|q w|q m w]; cbn [Mfs_Model.step s_multi s_fit]; unfold upd.
  - pose proof (HA q m p L) as N. destruct (Nat.eqb_spec c q) as [->|_]; [congruence|]. split; [exact D'|]. split; [exact I'|]. rewrite !setattr_get. destruct (Nat.eqb o p); [|exact G'].
    destruct (string_dec k "aux_data"); [congruence|]. destruct (string_dec k "dataset"); [congruence|exact G'].
  - rewrite set_all_other by (left; congruence). destruct (Nat.eqb_spec c q) as [->|_]; auto.
  - rewrite set_all_other by (left; congruence). destruct (Nat.eqb_spec c q) as [->|_]; auto.
  - rewrite set_all_other by (left; intros E; apply (HR q w L); now symmetry). destruct (Nat.eqb_spec c q) as [->|_]; auto.
  - rewrite set_all_other by (left; intros E; apply (HI q w L); now symmetry). auto.
  - split; [exact D'|]. split; [exact I'|]. rewrite setattr_get. destruct (Nat.eqb o q); [|exact G']. destruct (string_dec k m) as [<-|]; [now destruct (HF q w)|exact G'].
Qed.
End P.

(** The dataset and the auxiliary data of every configuration are those set last on the MultiFits object, for every sequence of
    operations on any number of objects, provided that no fit object belongs to two MultiFits objects and the attribute is not
    set on a fit directly. *)
Theorem C160_dataset : forall A (check idf : A -> A) args fs0 ops c n, (forall v, check (check v) = check v) ->
  owned ops -> has_config ops c n ->
  (untouched ops "dataset" -> config_attr (run check idf args fs0 ops) c n "dataset" = Ok (last_set (check (fst (fst (args c)))) ops (dataset_sel check c))) /\
  (untouched ops "aux_data" -> config_attr (run check idf args fs0 ops) c n "aux_data" = Ok (last_set (snd (fst (args c))) ops (aux_sel c))).
Proof.
  intros A check idf args fs0 ops c n ID OW HC. destruct (shares_run check idf args fs0 ID ops OW) as [HD HA]. destruct (run_names check idf args fs0 ops c) as (N1 & N2 & N3).
  destruct (multi_values check idf args fs0 ops c) as [V1 V2]. destruct (N2 n HC) as [o D]. apply N1 in HC. unfold config_attr. rewrite (proj2 (inb_iff string_dec n _) HC), D. split; intros U.
  - rewrite (proj1 (HD U) c n o D). now rewrite V1.
  - rewrite (HA U c n o D). now rewrite V2.
Qed.
Print Assumptions C160_dataset.

Definition eg_ops : list (op nat) := [SetDataset 0 7; Add 0 "a" 10; SetAux 0 3; Add 1 "a" 11; Add 0 "b" 12; SetDataset 1 8; SetReader 0 5; SetDataset 0 9; FitSet 12 "dB" 1; Add 0 "a" 13].
Example C160_example : owned eg_ops /\ untouched eg_ops "dataset" /\ has_config eg_ops 0 "b" /\
  let s := run (fun v => v) (fun v => v) (fun _ => (0, 0, 0)) (fun _ => []) eg_ops in
  config_attr s 0 "a" "dataset" = Ok 9 /\ config_attr s 0 "b" "dataset" = Ok 9 /\ config_attr s 1 "a" "dataset" = Ok 8 /\ config_attr s 0 "b" "aux_data" = Ok 3.
Proof.
  split; [|split; [|split; [|split; [|split; [|split]]]]]; try reflexivity.
  - intros c n o c' n' H H'. cbn in H, H'. intuition congruence.
  - intros o v H. cbn in H. intuition congruence.
  - exists 12. cbn. tauto.
Qed.

(** A fit object that was added to a second MultiFits object changes its dataset for the first one as well. *)
Theorem C160_shared_object_refuted : exists (ops : list (op nat)), untouched ops "dataset" /\ has_config ops 0 "a" /\
  let s := run (fun v => v) (fun v => v) (fun _ => (0, 0, 0)) (fun _ => []) ops in m_dataset (s_multi s 0) = 7 /\ config_attr s 0 "a" "dataset" = Ok 0.
Proof. exists [SetDataset 0 7; Add 0 "a" 10; Add 1 "a" 10]. split; [intros o v H; cbn in H; intuition congruence|]. split; [exists 10; cbn; tauto|]. split; reflexivity. Qed.
Print Assumptions C160_shared_object_refuted.

(** set_reader_arg and set_ID set the value on all configurations that are there; the values stay until another such call, the
    addition of a configuration or a direct assignment. *)
Theorem C160_reader_ID : forall A (check idf : A -> A) args fs0 pre post c v n, has_config pre c n ->
  (forall c' n' o', In (Add c' n' o') post -> c' <> c) ->
  ((forall q w, ~ In (SetReader q w) post) -> (forall o w, ~ In (FitSet o "reader_arg" w) post) ->
   config_attr (run check idf args fs0 (pre ++ [SetReader c v] ++ post)) c n "reader_arg" = Ok v /\ m_reader (s_multi (run check idf args fs0 (pre ++ [SetReader c v] ++ post)) c) = v) /\
  ((forall q w, ~ In (SetID q w) post) -> (forall o w, ~ In (FitSet o "ID" w) post) ->
   config_attr (run check idf args fs0 (pre ++ [SetID c v] ++ post)) c n "ID" = Ok (idf v) /\ multi_ID (run check idf args fs0 (pre ++ [SetID c v] ++ post)) c = Ok (idf v)).
Proof.
  intros A check idf args fs0 pre post c v n HC HA. destruct (run_names check idf args fs0 pre c) as (N1 & N2 & N3).
  assert (RU : forall x, run check idf args fs0 (pre ++ [x] ++ post) = fold_left (step check idf) post (step check idf (run check idf args fs0 pre) x)).
  { intros x. unfold run. rewrite !fold_left_app. reflexivity. }
  assert (SA : forall k w n, has_config pre c n -> exists o, dget string_dec n (m_fit (s_multi (run check idf args fs0 pre) c)) = Some o /\ In n (m_names (s_multi (run check idf args fs0 pre) c)) /\
     dget string_dec k (set_all (s_multi (run check idf args fs0 pre) c) k w (s_fit (run check idf args fs0 pre)) o) = Some w).
  { intros k w k0 H. destruct (N2 k0 H) as [o D]. exists o. split; [exact D|]. split; [now apply N1|]. apply (set_all_same _ k w _ o k0); [now apply N1|exact D]. }
  set (s := run check idf args fs0 pre) in *. clearbody s. split; intros H1 H2; rewrite RU; cbn [step].
  - split.
    + match goal with |- config_attr (fold_left _ _ ?s1) _ _ _ = _ => destruct (kept check idf "reader_arg" v s1 post c n) as (o & D & I & G) end.
      * destruct (SA "reader_arg" v n HC) as (o & D & I & G). exists o. cbn [s_multi s_fit]. unfold upd. rewrite Nat.eqb_refl. auto.
      * discriminate.
      * discriminate.
      * exact HA.
      * intros q w I. now destruct (H1 q w).
      * discriminate.
      * exact H2.
      * unfold config_attr. rewrite (proj2 (inb_iff string_dec n _) I), D, G. reflexivity.
    + assert (G : forall l s1, (forall q w, ~ In (SetReader q w) l) -> m_reader (s_multi (fold_left (step check idf) l s1) c) = m_reader (s_multi s1 c)).
      { clear. intros l. induction l as [|x l IH]; intros s1 H; [reflexivity|]. cbn [fold_left]. rewrite IH by (intros q w I; apply (H q w); now right).
        destruct x as [q m p|q w|q w|q w|q w|q m w]; cbn [step s_multi]; unfold upd; try reflexivity; try (destruct (Nat.eqb_spec c q) as [->|]; reflexivity). destruct (H q w). now left. }
      rewrite G by exact H1. cbn [s_multi]. unfold upd. rewrite Nat.eqb_refl. reflexivity.
  - assert (X : forall k, has_config pre c k -> config_attr (fold_left (step check idf) post (mkstate A (s_multi s) (set_all (s_multi s c) "ID" (idf v) (s_fit s)))) c k "ID" = Ok (idf v)).
    { intros k HK. match goal with |- config_attr (fold_left _ _ ?s1) _ _ _ = _ => destruct (kept check idf "ID" (idf v) s1 post c k) as (o & D & I & G) end.
      * destruct (SA "ID" (idf v) k HK) as (o & D & I & G). exists o. cbn [s_multi s_fit]. auto.
      * discriminate.
      * discriminate.
      * exact HA.
      * discriminate.
      * intros q w I. now destruct (H1 q w).
      * exact H2.
      * unfold config_attr. rewrite (proj2 (inb_iff string_dec k _) I), D, G. reflexivity. }
    split; [now apply X|]. unfold multi_ID.
    assert (NN : m_names (s_multi (fold_left (step check idf) post (mkstate A (s_multi s) (set_all (s_multi s c) "ID" (idf v) (s_fit s)))) c) = m_names (s_multi s c)).
    { assert (G : forall l s1, (forall c' n' o', In (Add c' n' o') l -> c' <> c) -> m_names (s_multi (fold_left (step check idf) l s1) c) = m_names (s_multi s1 c)).
      { clear. intros l. induction l as [|x l IH]; intros s1 H; [reflexivity|]. cbn [fold_left]. rewrite IH by (intros c' n' o' I; apply (H c' n' o'); now right).
        destruct x as [q m p|q w|q w|q w|q w|q m w]; cbn [step s_multi]; unfold upd; try reflexivity; try (destruct (Nat.eqb_spec c q) as [->|]; reflexivity).
        destruct (Nat.eqb_spec c q) as [->|]; [|reflexivity]. now destruct (H q m p (or_introl eq_refl)). }
      now rewrite G. }
    rewrite NN. destruct (m_names (s_multi s c)) as [|k r] eqn:E; [exfalso; apply N1 in HC; destruct HC|]. apply X. apply N1. now left.
Qed.
Print Assumptions C160_reader_ID.
Example C160_example_ID : let ops := [Add 0 "a" 1; Add 0 "b" 2] ++ [SetID 0 4] ++ [SetDataset 0 5; Add 1 "c" 3] in
  has_config [Add 0 "a" 1; Add 0 "b" 2; @SetAux nat 1 0] 0 "b" /\ config_attr (run (fun v => v) S (fun _ => (0, 0, 0)) (fun _ => []) ops) 0 "b" "ID" = Ok 5.
Proof. split; [exists 2; cbn; tauto|reflexivity]. Qed.

(** add_config hands over neither the reader_arg nor the ID of the MultiFits object. *)
Theorem C160_added_later_refuted : exists (ops : list (op nat)), let s := run (fun v => v) (fun v => v) (fun _ => (0, 0, 0)) (fun _ => [("ID", 1)]) ops in
  has_config ops 0 "b" /\ config_attr s 0 "a" "reader_arg" = Ok 5 /\ m_reader (s_multi s 0) = 5 /\ config_attr s 0 "b" "reader_arg" = Err AttributeError /\
  multi_ID s 0 = Ok 6 /\ config_attr s 0 "b" "ID" = Ok 1.
Proof. exists [Add 0 "a" 1; SetReader 0 5; SetID 0 6; Add 0 "b" 2]. split; [exists 2; cbn; tauto|]. repeat split; reflexivity. Qed.
Print Assumptions C160_added_later_refuted.
