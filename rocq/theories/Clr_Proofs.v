(** Proofs about the caches of class Fits. *)
From Coq Require Import List Arith Bool String Lia.
From Verif Require Import Base Base_Proofs Clr_Model Clr_Spec.
Import ListNotations.
Local Open Scope list_scope.

Notation LOG := "_assignvals_log_message"%string.

Lemma nc_true s : nothing_cached s = true <->
  forall name, In name cached_props -> is_property name = true -> caches s name = [].
Proof.
  unfold nothing_cached, cached_arg_number. rewrite forallb_forall. split.
  - intros H name I P. specialize (H (List.length (caches s name))).
    assert (J : In (List.length (caches s name)) (flat_map (fun name => if is_property name then [List.length (caches s name)] else []) cached_props)).
    { apply in_flat_map. exists name. split; [exact I|]. rewrite P. now left. }
    apply H, Nat.eqb_eq in J. destruct (caches s name); [reflexivity|discriminate].
  - intros H x J. apply in_flat_map in J as (name & I & J). destruct (is_property name) eqn:P; [|contradiction].
    destruct J as [<-|[]]. now rewrite (H _ I P).
Qed.
Lemma nc_false s name : In name cached_props -> is_property name = true -> caches s name <> [] -> nothing_cached s = false.
Proof. intros I P N. destruct (nothing_cached s) eqn:E; [|reflexivity]. destruct N. now apply (proj1 (nc_true s) E). Qed.

Section L.
Variable n : nat.
Hypothesis Hn : 1 <= n.

Lemma put_ne k c : put n k c <> [].
Proof using Hn. unfold put. destruct (inb key_dec k c); [discriminate|]. destruct n; [lia|discriminate]. Qed.

Lemma store_same name k s : caches (store n name k s) name = put n k (caches s name).
Proof. unfold store. cbn. now rewrite String.eqb_refl. Qed.
Lemma store_other name k s x : x <> name -> caches (store n name k s) x = caches s x.
Proof. intros H. unfold store. cbn. destruct (String.eqb_spec x name); [contradiction|reflexivity]. Qed.

Lemma store_nz name k s : nothing_cached s = false -> nothing_cached (store n name k s) = false.
Proof using Hn.
  intros H. destruct (nothing_cached (store n name k s)) eqn:E; [|reflexivity].
  assert (X : nothing_cached s = true); [|congruence].
  apply nc_true. intros x I P. pose proof (proj1 (nc_true _) E x I P) as Y.
  destruct (string_dec x name) as [->|D].
  - rewrite store_same in Y. destruct (put_ne _ _ Y).
  - now rewrite (store_other _ _ _ _ D) in Y.
Qed.
Lemma prop_nz name o s : In name cached_props -> is_property name = true -> nothing_cached (prop n name o s) = false.
Proof using Hn.
  intros I P. apply (nc_false _ name I P). unfold prop. rewrite store_same. apply put_ne.
Qed.

(** if nothing is counted then the functions have no entries either *)
Definition good (s : st) : Prop := nothing_cached s = true -> forall name, In name functions -> caches s name = [].
Lemma nz_good s : nothing_cached s = false -> good s.
Proof. intros H E. congruence. Qed.

Lemma log_nz o m p s : nothing_cached s = false -> nothing_cached (log_message n o m p s) = false.
Proof using Hn.
  intros H. unfold log_message. pose proof (store_nz LOG (o, [m; p]) s H) as X.
  destruct (hit _ _ _); exact X.
Qed.
Lemma interp_nz o p ok s : nothing_cached s = false -> nothing_cached (interp_assigns n o p ok s) = false.
Proof using Hn.
  intros H. unfold interp_assigns. destruct (hit _ _ _); [now apply store_nz|].
  destruct ok; [apply store_nz|]; apply prop_nz; vm_compute; tauto.
Qed.
Lemma item_nz o i s : nothing_cached (fst (assign_item n o i s)) = false.
Proof using Hn.
  unfold assign_item.
  assert (A : nothing_cached (prop n "_param_dyn_monotonic" o s) = false) by (apply prop_nz; vm_compute; tauto).
  set (s1 := prop n "_param_dyn_monotonic" o s) in *. clearbody s1.
  set (r := if i_mono i then _ else _).
  assert (B : nothing_cached (fst r) = false).
  { unfold r. destruct (i_mono i); cbn [fst]; [apply prop_nz; vm_compute; tauto|]. apply interp_nz, log_nz, A. }
  clearbody r. destruct (snd r); [|exact B].
  destruct (i_many i); cbn [fst]; apply prop_nz; vm_compute; tauto.
Qed.
Lemma assign_nz o l : forall s, l <> [] \/ nothing_cached s = false -> nothing_cached (assignvals n o l s) = false.
Proof using Hn.
  induction l as [|i l IH]; intros s H.
  - destruct H as [H|H]; [now destruct H|exact H].
  - cbn. pose proof (item_nz o i s) as X. destruct (assign_item n o i s) as [s' ok]. cbn in X.
    destruct ok; [|exact X]. apply IH. now right.
Qed.
Lemma fold_nz o l : forall s, (forall x, In x l -> In x cached_props /\ is_property x = true) -> l <> [] \/ nothing_cached s = false ->
  nothing_cached (fold_left (fun s name => prop n name o s) l s) = false.
Proof using Hn.
  induction l as [|a l IH]; intros s H D.
  - destruct D as [D|D]; [now destruct D|exact D].
  - cbn. apply IH; [intros; apply H; now right|]. right. destruct (H a (or_introl eq_refl)). now apply prop_nz.
Qed.
Lemma model_props_ok x : In x model_props -> In x cached_props /\ is_property x = true.
Proof.
  intros I. assert (X : forallb (fun x => inb string_dec x cached_props && is_property x) model_props = true) by reflexivity.
  rewrite forallb_forall in X. apply X, andb_true_iff in I as [I J]. split; [|exact J]. now apply inb_iff in I.
Qed.
Lemma In_firstn {A} (x : A) m l : In x (firstn m l) -> In x l.
Proof. revert m. induction l; intros [|m]; cbn; try tauto. intros [->|I]; [tauto|]. right. now apply (IHl m). Qed.

Lemma functions_cached name : In name functions -> In name cached_props.
Proof. intros I. assert (X : forallb (fun x => inb string_dec x cached_props) functions = true) by reflexivity.
  rewrite forallb_forall in X. apply X in I. now apply inb_iff in I. Qed.

Lemma clear_empty s : good s -> forall name, In name cached_props -> caches (clear_cache s) name = [].
Proof.
  intros G name I. unfold clear_cache. destruct (nothing_cached s) eqn:E.
  - destruct (is_property name) eqn:P; [now apply (proj1 (nc_true s) E)|].
    apply (G E). unfold is_property in P. apply negb_false_iff in P. now apply inb_iff in P.
  - cbn [caches]. apply inb_iff with (eqd := string_dec) in I. now rewrite I.
Qed.
Lemma setattr_eq a s : setattr a s = if inb string_dec a ["sig0"; "dB"; "dataset"; "defdict"; "set_V_SRF"]%string then clear_cache s else s.
Proof. unfold setattr, clear_cache. destruct (inb _ _ _); [|reflexivity]. now destruct (nothing_cached s). Qed.
Lemma clear_good s : good s -> good (clear_cache s).
Proof. intros G _ name I. now apply clear_empty, functions_cached. Qed.

Lemma step_good s x : good s -> good (step n s x).
Proof using Hn.
  intros G. destruct x as [name o|o m|o l|o a|o]; cbn [step].
  - destruct (inb string_dec name cached_props && is_property name) eqn:E; [|exact G].
    apply andb_true_iff in E as [E P]. apply inb_iff in E. now apply nz_good, prop_nz.
  - unfold set_model. destruct (hit _ _ _) eqn:H.
    + destruct (nothing_cached s) eqn:E; [|now apply nz_good, store_nz].
      unfold hit in H. rewrite (G E "set_model"%string) in H; [discriminate|now left].
    + destruct m as [|m]; [exact G|].
      assert (X : nothing_cached (fold_left (fun s name => prop n name o s) (firstn (S m) model_props) s) = false).
      { apply fold_nz; [intros x I; apply In_firstn in I; now apply model_props_ok|]. left. discriminate. }
      destruct (Nat.ltb _ _); [now apply nz_good|]. now apply nz_good, store_nz.
  - destruct l as [|i l]; [exact G|]. apply nz_good, assign_nz. left. discriminate.
  - rewrite setattr_eq. destruct (inb _ _ _); [now apply clear_good|exact G].
  - now apply clear_good.
Qed.
Lemma run_good ops : forall s, good s -> good (run n ops s).
Proof using Hn. induction ops as [|x ops IH]; intros s G; [exact G|]. cbn. now apply IH, step_good. Qed.
Lemma start_good : good start.
Proof. intros _ name _. reflexivity. Qed.

(** the messages: the cache of the function and the log *)
Definition view (s : st) : list key * list key := (caches s LOG, logged s).
Definition lstep (v : list key * list key) (k : key) : list key * list key :=
  (put n k (fst v), if inb key_dec k (fst v) then snd v else snd v ++ [k]).

Lemma view_store name k s : name <> LOG -> view (store n name k s) = view s.
Proof. intros H. unfold view. rewrite store_other by congruence. reflexivity. Qed.
Lemma view_log o m p s : view (log_message n o m p s) = lstep (view s) (o, [m; p]).
Proof.
  unfold log_message, view, lstep, hit. cbn [fst snd].
  destruct (inb key_dec (o, [m; p]) (caches s LOG)) eqn:E; cbn [caches logged]; rewrite store_same; reflexivity.
Qed.
Lemma view_interp o p ok s : view (interp_assigns n o p ok s) = view s.
Proof.
  unfold interp_assigns. destruct (hit _ _ _); [apply view_store; discriminate|].
  destruct ok; unfold prop; repeat (rewrite view_store by discriminate); reflexivity.
Qed.
Lemma view_prop name o s : is_property name = true -> view (prop n name o s) = view s.
Proof. intros P. apply view_store. intros ->. discriminate. Qed.
Lemma view_item o i s : view (fst (assign_item n o i s)) = fold_left lstep (warnings o i) (view s) /\
  snd (assign_item n o i s) = i_mono i || i_ok i.
Proof.
  destruct i as [p mono ok many]. unfold assign_item, warnings. cbn [i_mono i_ok i_many i_name].
  destruct mono; [|destruct ok]; destruct many; cbn [snd fst orb andb negb app fold_left];
    repeat (rewrite ?view_interp, ?view_log, ?view_prop by reflexivity); split; reflexivity.
Qed.
Lemma view_assign o l : forall s, view (assignvals n o l s) = fold_left lstep (flat_map (warnings o) (processed l)) (view s).
Proof.
  induction l as [|i l IH]; intros s; [reflexivity|]. cbn [assignvals processed flat_map].
  destruct (view_item o i s) as [A B]. destruct (assign_item n o i s) as [s' ok]. cbn [fst snd] in A, B. subst ok.
  rewrite fold_left_app, <- A. destruct (i_mono i || i_ok i); [apply IH|reflexivity].
Qed.
Lemma view_fold o l : (forall x, In x l -> is_property x = true) -> forall s,
  view (fold_left (fun s name => prop n name o s) l s) = view s.
Proof.
  induction l as [|a l IH]; intros H s; [reflexivity|]. cbn. rewrite IH by (intros; apply H; now right).
  apply view_prop. apply H. now left.
Qed.
Lemma view_step s x : ~ empties x -> view (step n s x) = fold_left lstep (due [x]) (view s).
Proof.
  intros N. destruct x as [name o|o m|o l|o a|o]; unfold due; cbn [step flat_map app]; rewrite ?app_nil_r.
  - destruct (inb string_dec name cached_props && is_property name) eqn:E; [|reflexivity].
    apply andb_true_iff in E as [_ P]. now rewrite view_prop.
  - unfold set_model. destruct (hit _ _ _); [now rewrite view_store by discriminate|]. cbv zeta.
    destruct (Nat.ltb _ _); rewrite ?view_store by discriminate; apply view_fold;
      intros x I; apply In_firstn in I; now apply model_props_ok.
  - apply view_assign.
  - cbn in N. unfold setattr. destruct (inb string_dec a _) eqn:E; [|reflexivity].
    apply inb_iff in E. contradiction.
  - destruct (N I).
Qed.
Lemma due_cons x ops : due (x :: ops) = due [x] ++ due ops.
Proof. unfold due. cbn [flat_map]. now rewrite app_nil_r. Qed.
Lemma view_run ops : List.Forall (fun x => ~ empties x) ops -> forall s, view (run n ops s) = fold_left lstep (due ops) (view s).
Proof.
  induction 1 as [|x ops N _ IH]; intros s; [reflexivity|].
  rewrite due_cons, fold_left_app. cbn [run fold_left]. fold (run n ops (step n s x)). now rewrite IH, view_step.
Qed.

(** what is logged does not depend on what was logged before *)
Lemma log_frame l : forall c g h, snd (fold_left lstep l (c, g ++ h)) = g ++ snd (fold_left lstep l (c, h)) /\
  fst (fold_left lstep l (c, g ++ h)) = fst (fold_left lstep l (c, h)).
Proof.
  induction l as [|k l IH]; intros c g h; [split; reflexivity|]. cbn [fold_left]. unfold lstep at 2 4 6 8. cbn [fst snd].
  destruct (inb key_dec k c); [apply IH|]. rewrite <- app_assoc. apply IH.
Qed.

Lemma view_clear s : good s -> view (clear_cache s) = ([], logged s).
Proof.
  intros G. unfold view. rewrite clear_empty; [|exact G|vm_compute; tauto].
  unfold clear_cache. now destruct (nothing_cached s).
Qed.
Lemma view_empties s x : good s -> empties x -> view (step n s x) = ([], logged s).
Proof.
  intros G E. destruct x as [name o|o m|o l|o a|o]; try contradiction; cbn [step].
  - rewrite setattr_eq. unfold empties, defines in E. apply inb_iff with (eqd := string_dec) in E. rewrite E. now apply view_clear.
  - now apply view_clear.
Qed.

(** any session from a state in which no message is cached *)
Lemma run_frame ops : forall s t, good s -> good t -> caches s LOG = caches t LOG ->
  forall h, logged s = h ++ logged t -> logged (run n ops s) = h ++ logged (run n ops t).
Proof using Hn.
  induction ops as [|x ops IH]; intros s t G1 G2 C h L; [exact L|].
  cbn [run fold_left]. fold (run n ops (step n s x)) (run n ops (step n t x)).
  assert (D : empties x \/ ~ empties x).
  { destruct x as [name o|o m|o l|o a|o]; cbn [empties]; try tauto. unfold defines.
    destruct (in_dec string_dec a ["sig0"; "dB"; "dataset"; "defdict"; "set_V_SRF"]%string); tauto. }
  assert (Q : caches (step n s x) LOG = caches (step n t x) LOG /\ logged (step n s x) = h ++ logged (step n t x)).
  { destruct D as [E|N].
    - pose proof (view_empties s x G1 E) as A. pose proof (view_empties t x G2 E) as B. unfold view in A, B.
      injection A as A1 A2. injection B as B1 B2. now rewrite A1, B1, A2, B2.
    - pose proof (view_step s x N) as A. pose proof (view_step t x N) as B. unfold view in A, B.
      rewrite C, L in A. destruct (log_frame (due [x]) (caches t LOG) h (logged t)) as [X Y].
      rewrite <- A, <- B in X, Y. cbn [fst snd] in X, Y. split; [exact Y|exact X]. }
  destruct Q. apply IH; [now apply step_good|now apply step_good|assumption|assumption].
Qed.

(** few messages: nothing is dropped *)
Definition same (v : list key * list key) : Prop := NoDup (snd v) /\ NoDup (fst v) /\ (forall k, In k (fst v) <-> In k (snd v)).
Lemma remove_in k x (c : list key) : In x (remove key_dec k c) <-> In x c /\ x <> k.
Proof. split; [apply in_remove|intros [A B]; now apply in_in_remove]. Qed.
Lemma NoDup_remove_key k (c : list key) : NoDup c -> NoDup (remove key_dec k c).
Proof.
  induction 1 as [|a c N _ IH]; cbn; [constructor|]. destruct (key_dec k a); [exact IH|].
  constructor; [|exact IH]. intros I. apply remove_in in I. tauto.
Qed.
Lemma fold_same l : forall v, same v -> List.length (nodup key_dec (snd v ++ l)) <= n ->
  same (fold_left lstep l v) /\ (forall k, In k (snd (fold_left lstep l v)) <-> In k (snd v) \/ In k l).
Proof.
  induction l as [|k l IH]; intros v S B; [split; [exact S|]; cbn; tauto|]. cbn [fold_left].
  destruct S as (S1 & S2 & S3).
  assert (X : same (lstep v k) /\ (forall x, In x (snd (lstep v k)) <-> In x (snd v) \/ x = k)).
  { unfold lstep, put. destruct (inb key_dec k (fst v)) eqn:E.
    - apply inb_iff in E. cbn [fst snd]. split; [split; [exact S1|split]|].
      + constructor; [apply remove_In|now apply NoDup_remove_key].
      + intros x. cbn [fst snd In]. rewrite remove_in, <- S3. destruct (key_dec k x) as [<-|D]; [tauto|]. intuition congruence.
      + intros x. cbn [snd]. rewrite <- S3. intuition congruence.
    - assert (N : ~ In k (fst v)) by (intros I; apply inb_iff with (eqd := key_dec) in I; congruence).
      assert (Lk : List.length (k :: fst v) <= n).
      { etransitivity; [|exact B]. apply NoDup_incl_length; [now constructor|].
        intros x I. apply nodup_In, in_or_app. destruct I as [->|I]; [right; now left|left; now apply S3]. }
      rewrite firstn_all2 by exact Lk. cbn [fst snd]. split; [split; [|split]|].
      + apply NoDup_app_single; [exact S1|]. now rewrite <- S3.
      + now constructor.
      + intros x. cbn [fst snd In]. rewrite in_app_iff, S3. cbn. tauto.
      + intros x. cbn [snd]. rewrite in_app_iff. cbn. intuition congruence. }
  destruct X as [Y Z]. specialize (IH (lstep v k) Y).
  destruct IH as [I1 I2].
  { etransitivity; [|exact B]. apply NoDup_incl_length; [apply NoDup_nodup|]. intros x I.
    apply nodup_In in I. apply nodup_In. apply in_app_iff in I. apply in_app_iff. rewrite Z in I. cbn [In]. intuition congruence. }
  split; [exact I1|]. intros x. rewrite I2, Z. cbn [In]. intuition congruence.
Qed.

(** different messages: all are logged *)
Lemma fold_fresh l : forall c g, NoDup l -> (forall x, In x l -> ~ In x c) -> List.length c <= n ->
  fold_left lstep l (c, g) = (firstn n (rev l ++ c), g ++ l).
Proof.
  induction l as [|k l IH]; intros c g D F Lc.
  - cbn. rewrite firstn_all2 by exact Lc. now rewrite app_nil_r.
  - cbn [fold_left]. unfold lstep at 2, put. cbn [fst snd].
    assert (E : inb key_dec k c = false).
    { destruct (inb key_dec k c) eqn:E; [|reflexivity]. apply inb_iff in E. destruct (F k); [now left|exact E]. }
    rewrite E. inversion D as [|? ? D1 D2]; subst. rewrite IH.
    + cbn [rev]. rewrite <- !app_assoc. cbn [app]. f_equal.
      rewrite !firstn_app. f_equal. rewrite firstn_firstn. now rewrite Nat.min_l by lia.
    + exact D2.
    + intros x I J. apply In_firstn in J. destruct J as [<-|J]; [contradiction|]. destruct (F x); [now right|exact J].
    + rewrite firstn_length. lia.
Qed.
End L.
