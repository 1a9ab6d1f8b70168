(** Proofs about the routing of parameters. *)
From Coq Require Import QArith Bool Arith String List Lia.
From Verif Require Import Base Base_Proofs Ini_Model Ini_Spec Par_Model Par_Spec.
Import ListNotations.
Local Open Scope string_scope.
Local Open Scope list_scope.

Lemma in_minus x a b : In x (minus a b) <-> In x a /\ ~ In x b.
Proof. unfold minus. rewrite filter_In, negb_true_iff, inb_false. tauto. Qed.
Lemma in_angset s : In s angset <-> angle s.
Proof. unfold angset, angle; simpl. intuition congruence. Qed.
Lemma in_reserved s : In s reserved <-> reserved_name s.
Proof. unfold reserved, reserved_name; simpl. intuition congruence. Qed.

Section P.
Context {Val : Type}.
Implicit Types (m : model Val) (r fixed : list (string * Val)).

Lemma in_vsrf m s : In s (vsrf Val m) <-> scattering m s.
Proof. unfold vsrf, scattering. rewrite in_app_iff, !in_minus, in_angset. tauto. Qed.
Lemma in_symbs (q : quantity Val) s : In s (symbs Val q) <-> occurs_in q s.
Proof. destruct q; simpl; tauto. Qed.
Lemma in_toN m s : In s (toNlist Val m) <-> defining m s.
Proof. unfold toNlist, defining. rewrite !in_app_iff, !in_symbs. tauto. Qed.
Lemma scattering_dec m s : {scattering m s} + {~ scattering m s}.
Proof. destruct (in_dec string_dec s (vsrf Val m)) as [H|H]; [left|right]; rewrite <- in_vsrf; exact H. Qed.
Lemma defining_dec m s : {defining m s} + {~ defining m s}.
Proof. destruct (in_dec string_dec s (toNlist Val m)) as [H|H]; [left|right]; rewrite <- in_toN; exact H. Qed.
Lemma reserved_dec s : {reserved_name s} + {~ reserved_name s}.
Proof. destruct (in_dec string_dec s reserved) as [H|H]; [left|right]; rewrite <- in_reserved; exact H. Qed.
Lemma routed_dec m s : {routed m s} + {~ routed m s}.
Proof.
  unfold routed. destruct (reserved_dec s), (scattering_dec m s), (defining_dec m s); try (left; tauto); right; tauto.
Qed.
Lemma in_excluded m k : In k (excludesymbs Val m) <-> ~ routed m k.
Proof.
  unfold excludesymbs, routed. rewrite in_app_iff, in_minus, in_reserved, in_toN, in_vsrf.
  destruct (reserved_dec k), (scattering_dec m k), (defining_dec m k); tauto.
Qed.

Lemma given_update r fixed k : NoDup (keys fixed) -> dget string_dec k (dupdate string_dec r fixed) = given r fixed k.
Proof. intros H. rewrite dget_dupdate by exact H. reflexivity. Qed.

Lemma dget_filter_keys (f : string -> bool) (d : list (string * Val)) k :
  dget string_dec k (filter (fun kv => f (fst kv)) d) = if f k then dget string_dec k d else None.
Proof.
  induction d as [|[k' v] d IH]; simpl; [destruct (f k); reflexivity|].
  destruct (f k') eqn:E; simpl.
  - destruct (string_dec k k') as [->|N]; [rewrite E; reflexivity|exact IH].
  - destruct (string_dec k k') as [->|N]; [rewrite E in *; exact IH|exact IH].
Qed.

Lemma new_value_spec name r fixed q old : NoDup (keys fixed) ->
  let all := dupdate string_dec r fixed in
  ((forall s, occurs_in q s -> given r fixed s <> None) ->
   exists v, new_value Val name all q old = Ok v /\ means name q old (given r fixed) v) /\
  (~ (forall s, occurs_in q s -> given r fixed s <> None) -> new_value Val name all q old = Err KeyError).
Proof.
  intros N all. destruct q as [|l f]; simpl.
  - split; [|intros H; exfalso; apply H; intros s []]. intros _. eexists. split; [reflexivity|]. unfold all. rewrite given_update by exact N. reflexivity.
  - assert (E : forallb (fun s => dmem string_dec s all) l = true <-> forall s, In s l -> given r fixed s <> None).
    { rewrite forallb_forall. unfold dmem, all. split; intros H s Hs; specialize (H s Hs).
      - rewrite given_update in H by exact N. intro X. rewrite X in H. discriminate.
      - rewrite given_update by exact N. destruct (given r fixed s); congruence. }
    destruct (forallb (fun s => dmem string_dec s all) l) eqn:F.
    + split; [|intros H; exfalso; apply H; apply E; reflexivity]. intros _. eexists. split; [reflexivity|].
      eexists. split; [reflexivity|]. intro s. split; intro Hs.
      * rewrite (proj2 (inb_iff string_dec s l) Hs). apply given_update, N.
      * rewrite (proj2 (inb_false string_dec s l) Hs). reflexivity.
    + split; [|reflexivity]. intros H. apply E in H. discriminate.
Qed.

Lemma set_calc_ok m old r fixed : NoDup (keys fixed) -> (forall s, defining m s -> given r fixed s <> None) ->
  exists v, set_calc_values Val m old r fixed = Ok v /\ right_values m old (given r fixed) v.
Proof.
  intros N H.
  destruct (proj1 (new_value_spec "omega" r fixed (m_omega m) (v_omega old) N)) as [om [E1 M1]]; [intros s Hs; apply H; left; exact Hs|].
  destruct (proj1 (new_value_spec "tau" r fixed (m_tau m) (v_tau old) N)) as [ta [E2 M2]]; [intros s Hs; apply H; right; left; exact Hs|].
  destruct (proj1 (new_value_spec "NormBRDF" r fixed (m_N m) (v_N old) N)) as [n [E3 M3]]; [intros s Hs; apply H; right; right; exact Hs|].
  unfold set_calc_values. rewrite E1; cbn [bind]. rewrite E2; cbn [bind]. rewrite E3; cbn [bind]. eexists. split; [reflexivity|].
  unfold right_values; simpl. split; [exact M1|]. split; [exact M2|]. split; [exact M3|].
  split; [rewrite given_update by exact N; reflexivity|].
  split; intros k Hk; rewrite (dget_filter_keys (fun k => negb (inb string_dec k (excludesymbs Val m)))).
  - assert (F : inb string_dec k (excludesymbs Val m) = false) by (apply inb_false; rewrite in_excluded; tauto).
    rewrite F. simpl. apply given_update, N.
  - assert (F : inb string_dec k (excludesymbs Val m) = true) by (apply inb_iff; rewrite in_excluded; exact Hk).
    rewrite F. reflexivity.
Qed.
Lemma set_calc_err m old r fixed : NoDup (keys fixed) -> ~ (forall s, defining m s -> given r fixed s <> None) ->
  set_calc_values Val m old r fixed = Err KeyError.
Proof.
  intros N H.
  assert (D : forall q : quantity Val, {forall s, occurs_in q s -> given r fixed s <> None} + {~ forall s, occurs_in q s -> given r fixed s <> None}).
  { intros [|l f]; simpl; [left; tauto|].
    destruct (forallb (fun s => match given r fixed s with None => false | _ => true end) l) eqn:E.
    - left. rewrite forallb_forall in E. intros s Hs X. specialize (E s Hs). rewrite X in E. discriminate.
    - right. intros A. assert (forallb (fun s => match given r fixed s with None => false | _ => true end) l = true).
      { apply forallb_forall. intros s Hs. specialize (A s Hs). destruct (given r fixed s); congruence. } congruence. }
  unfold set_calc_values.
  destruct (D (m_omega m)) as [A1|A1].
  - destruct (proj1 (new_value_spec "omega" r fixed (m_omega m) (v_omega old) N) A1) as [om [-> _]]; cbn [bind].
    destruct (D (m_tau m)) as [A2|A2].
    + destruct (proj1 (new_value_spec "tau" r fixed (m_tau m) (v_tau old) N) A2) as [ta [-> _]]; cbn [bind].
      rewrite (proj2 (new_value_spec "NormBRDF" r fixed (m_N m) (v_N old) N)); [reflexivity|]. intros A3. apply H.
      intros s [X|[X|X]]; auto.
    + rewrite (proj2 (new_value_spec "tau" r fixed (m_tau m) (v_tau old) N) A2). reflexivity.
  - rewrite (proj2 (new_value_spec "omega" r fixed (m_omega m) (v_omega old) N) A1). reflexivity.
Qed.

Lemma in_start d s : In s (start_names d) <-> In (s, Fitted) d.
Proof.
  unfold start_names. rewrite in_flat_map. split.
  - intros [[k e] [Hk H]]. simpl in H. destruct e; simpl in H; try contradiction. destruct H as [<-|[]]. exact Hk.
  - intros H. exists (s, Fitted). split; [exact H|left; reflexivity].
Qed.
Lemma fixed_spec frame cols d : columns_there frame cols d ->
  exists l, fixed_names frame cols d = Ok l /\ forall s, In s l <-> frame = true /\ In (s, Auxiliary) d.
Proof.
  induction d as [|[k e] d IH]; intros H.
  - exists []. split; [reflexivity|]. intros s. split; [intros []|intros [_ []]].
  - destruct IH as [l [E L]]; [intros F s Hs; apply (H F); right; exact Hs|].
    destruct e; simpl; try (exists l; split; [exact E|]; intros s; rewrite L; split; [tauto|]; intros [F [X|X]]; [discriminate|tauto]).
    destruct frame.
    + rewrite (proj2 (inb_iff string_dec k cols) (H eq_refl k (or_introl eq_refl))). rewrite E. cbn [bind].
      exists (k :: l). split; [reflexivity|]. intros s. simpl. rewrite L. split.
      * intros [->|[_ X]]; auto.
      * intros [_ [X|X]]; [injection X as ->; auto|tauto].
    + exists l. split; [exact E|]. intros s. rewrite L. split; intros [X _]; discriminate.
Qed.
Lemma fixed_err frame cols d : ~ columns_there frame cols d -> fixed_names frame cols d = Err AssertionError.
Proof.
  induction d as [|[k e] d IH]; intros H.
  - exfalso. apply H. intros _ s [].
  - assert (X : e <> Auxiliary \/ frame = false \/ In k cols -> ~ columns_there frame cols d).
    { intros C A. apply H. intros F s [S|S]; [|apply (A F), S]. injection S as -> ->. destruct C as [C|[C|C]]; [congruence|congruence|exact C]. }
    destruct e; simpl; try (apply IH, X; left; discriminate).
    destruct frame; [|apply IH, X; right; left; reflexivity].
    destruct (inb string_dec k cols) eqn:E; [|reflexivity]. rewrite IH; [reflexivity|]. apply X. right. right. apply (inb_iff string_dec). exact E.
Qed.

Lemma unique_entry (d : defdict) s e e' : NoDup (keys d) -> In (s, e) d -> In (s, e') d -> e = e'.
Proof. intros N A B. pose proof (dget_in_nodup string_dec _ _ _ N A). pose proof (dget_in_nodup string_dec _ _ _ N B). congruence. Qed.

Lemma param_R_spec m frame cols d : NoDup (keys d) ->
  (columns_there frame cols d -> (forall s, scattering m s -> provided frame d s) ->
   exists l, param_R_names Val m frame cols d = Ok l) /\
  (~ (columns_there frame cols d /\ (forall s, scattering m s -> provided frame d s)) ->
   param_R_names Val m frame cols d = Err AssertionError).
Proof.
  intros N. unfold param_R_names.
  assert (S : forall l, (forall s, In s l <-> frame = true /\ In (s, Auxiliary) d) ->
     (forallb (fun s => inb string_dec s (symdiff (start_names d) l)) (vsrf Val m) = true <->
      forall s, scattering m s -> provided frame d s)).
  { intros l L. rewrite forallb_forall. split; intros H s Hs.
    - apply in_vsrf in Hs. specialize (H s Hs). apply inb_iff in H. unfold symdiff in H. rewrite in_app_iff, !in_minus, in_start, L in H.
      unfold provided. tauto.
    - apply in_vsrf in Hs. apply inb_iff. specialize (H s Hs). unfold symdiff. rewrite in_app_iff, !in_minus, in_start, L.
      destruct H as [H|[F H]].
      + left. split; [exact H|]. intros [_ X]. pose proof (unique_entry d s _ _ N H X). discriminate.
      + right. split; [tauto|]. intros X. pose proof (unique_entry d s _ _ N H X). discriminate. }
  split.
  - intros C H. destruct (fixed_spec frame cols d C) as [l [E L]]. rewrite E. cbn [bind].
    rewrite (proj2 (S l L) H). eexists. reflexivity.
  - intros H. destruct (fixed_names frame cols d) as [l|er] eqn:E; cbn [bind].
    + assert (C : columns_there frame cols d).
      { intros F s Hs. destruct (in_dec string_dec s cols) as [I|I]; [exact I|]. rewrite fixed_err in E; [discriminate|]. intro X. apply I, (X F s Hs). }
      destruct (fixed_spec frame cols d C) as [l' [E' L]]. rewrite E in E'. injection E' as <-.
      destruct (forallb _ _) eqn:F; [|reflexivity]. exfalso. apply H. split; [exact C|]. apply (S l L), F.
    + assert (X : er = AssertionError).
      { clear - E. revert er E. induction d as [|[k e] d IH]; intros er E; [discriminate|]. destruct e; simpl in E; try (apply IH, E).
        destruct frame; [|apply IH, E]. destruct (inb string_dec k cols); [|congruence].
        destruct (fixed_names true cols d); cbn [bind] in E; [discriminate|]. injection E as <-. apply IH. reflexivity. }
      rewrite X. reflexivity.
Qed.

Lemma defined_dec m (r fixed : list (string * Val)) : {forall s, defining m s -> given r fixed s <> None} + {~ forall s, defining m s -> given r fixed s <> None}.
Proof.
  destruct (forallb (fun s => match given r fixed s with None => false | _ => true end) (toNlist Val m)) eqn:E.
  - left. rewrite forallb_forall in E. intros s Hs X. apply in_toN in Hs. specialize (E s Hs). rewrite X in E. discriminate.
  - right. intros A. assert (forallb (fun s => match given r fixed s with None => false | _ => true end) (toNlist Val m) = true).
    { apply forallb_forall. intros s Hs. apply in_toN in Hs. specialize (A s Hs). destruct (given r fixed s); congruence. } congruence.
Qed.
Lemma param_R_names_spec m frame cols d names : param_R_names Val m frame cols d = Ok names ->
  forall s, In s names <-> provided frame d s /\ routed m s.
Proof.
  unfold param_R_names. destruct (fixed_names frame cols d) as [l|e] eqn:E; cbn [bind]; [|discriminate].
  assert (C : columns_there frame cols d).
  { intros F s Hs. destruct (in_dec string_dec s cols) as [I|I]; [exact I|]. rewrite fixed_err in E; [discriminate|]. intro X. apply I, (X F s Hs). }
  destruct (fixed_spec frame cols d C) as [l' [E' L]]. rewrite E in E'. injection E' as <-.
  destruct (forallb _ _); [|discriminate]. intros H s. injection H as <-.
  rewrite !in_minus, in_app_iff, in_start, L, in_reserved, in_toN, in_vsrf. unfold provided, routed.
  destruct (scattering_dec m s), (defining_dec m s); tauto.
Qed.

Lemma fit_given frame d r fixed s : fit_dicts frame d r fixed -> (given r fixed s <> None <-> provided frame d s).
Proof.
  intros (_ & _ & R & F). unfold given, provided. rewrite <- R, <- F. rewrite !(dget_in_keys string_dec).
  destruct (dget string_dec s fixed); [|tauto]. split; [intros _; right; discriminate|discriminate].
Qed.

Lemma evaluable_spec m old r fixed v : right_values m old (given r fixed) v ->
  (evaluable Val m v = true <-> forall s, used m s -> routed m s /\ given r fixed s <> None).
Proof.
  intros (_ & _ & _ & _ & R1 & R2). unfold evaluable. rewrite forallb_forall. unfold used. split.
  - intros H s [U A]. specialize (H s ltac:(apply in_or_app; exact U)). apply inb_iff in H. apply in_app_iff in H.
    destruct H as [H|H]; [apply in_angset in H; contradiction|]. apply (dget_in_keys string_dec) in H.
    destruct (routed_dec m s) as [Q|Q]; [|rewrite R2 in H by exact Q; congruence]. rewrite R1 in H by exact Q. tauto.
  - intros H s Hs. apply inb_iff, in_or_app. apply in_app_iff in Hs.
    destruct (in_dec string_dec s angset) as [A|A]; [left; exact A|right].
    apply (dget_in_keys string_dec). rewrite in_angset in A. destruct (H s (conj Hs A)) as [Q X]. rewrite R1 by exact Q. exact X.
Qed.

(** exact condition for an evaluation *)
Lemma calc_model_spec m old r fixed : NoDup (keys fixed) ->
  ((forall s, defining m s -> given r fixed s <> None) -> (forall s, used m s -> routed m s /\ given r fixed s <> None) ->
   exists v, calc_model Val m old r fixed = Ok v /\ right_values m old (given r fixed) v) /\
  (~ (forall s, defining m s -> given r fixed s <> None) -> calc_model Val m old r fixed = Err KeyError) /\
  ((forall s, defining m s -> given r fixed s <> None) -> ~ (forall s, used m s -> routed m s /\ given r fixed s <> None) ->
   calc_model Val m old r fixed = Err NameError).
Proof.
  intros N. unfold calc_model. split; [|split].
  - intros D U. destruct (set_calc_ok m old r fixed N D) as [v [E R]]. rewrite E; cbn [bind].
    rewrite (proj2 (evaluable_spec m old r fixed v R) U). eauto.
  - intros D. rewrite set_calc_err by assumption. reflexivity.
  - intros D U. destruct (set_calc_ok m old r fixed N D) as [v [E R]]. rewrite E; cbn [bind].
    destruct (evaluable Val m v) eqn:X; [|reflexivity]. exfalso. apply U. apply (evaluable_spec m old r fixed v R), X.
Qed.
End P.
