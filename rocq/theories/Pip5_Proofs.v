(** The pipeline keeps tables together: a simulation between the pipeline and the same pipeline in which every table
    is one single row. *)
From Coq Require Import List Arith Bool String Ascii Lia Permutation.
From Verif Require Import Base Base_Proofs Str_Model Pip_Model Pip_Spec Pip_Proofs.
Import ListNotations.
Local Open Scope list_scope.

Lemma Forall2_nth {A B} (R : A -> B -> Prop) l m : Forall2 R l m -> forall i,
  match nth_error l i, nth_error m i with Some x, Some y => R x y | None, None => True | _, _ => False end.
Proof. induction 1; intros [|i]; cbn; auto. apply IHForall2. Qed.
Lemma Forall2_upd {A B} (R : A -> B -> Prop) l m i x y : Forall2 R l m -> R x y -> Forall2 R (upd i x l) (upd i y m).
Proof. intros H. revert i. induction H; intros [|i] K; cbn; auto. Qed.
Lemma Forall2_del {A B} (R : A -> B -> Prop) l m i : Forall2 R l m -> Forall2 R (del i l) (del i m).
Proof. intros H. revert i. induction H; intros [|i]; cbn; auto. Qed.
Lemma Forall2_isnil {A B} (R : A -> B -> Prop) l m : Forall2 R l m -> isnil l = isnil m.
Proof. destruct 1; reflexivity. Qed.
Lemma Forall2_repeat {A B} (R : A -> B -> Prop) x y n : R x y -> Forall2 R (repeat x n) (repeat y n).
Proof. intros H. induction n; cbn; auto. Qed.
Lemma Forall2_forallb {A B} (R : A -> B -> Prop) f g l m : (forall x y, R x y -> f x = g y) -> Forall2 R l m -> forallb f l = forallb g m.
Proof. intros H. induction 1; cbn; [reflexivity|]. rewrite (H _ _ H0), IHForall2. reflexivity. Qed.
Lemma Forall2_existsb {A B} (R : A -> B -> Prop) f g l m : (forall x y, R x y -> f x = g y) -> Forall2 R l m -> existsb f l = existsb g m.
Proof. intros H. induction 1; cbn; [reflexivity|]. rewrite (H _ _ H0), IHForall2. reflexivity. Qed.

Lemma Forall2_len {A B} (R : A -> B -> Prop) l m : Forall2 R l m -> List.length l = List.length m.
Proof. induction 1; cbn; auto. Qed.

Section Sim.
Context {Job Row : Type}.
Notation gvalue := (@value (list Row)).
Notation value := (@value Row).

Inductive vrel : gvalue -> value -> Prop :=
| vr_frame fs : vrel (Frame fs) (Frame (List.concat fs))
| vr_scalar r : vrel (Scalar [r]) (Scalar r)
| vr_obj : vrel Obj Obj.
Definition lrel (a : string * list gvalue) (b : string * list value) : Prop := fst a = fst b /\ Forall2 vrel (snd a) (snd b).
Definition rrel : @results (list Row) -> @results Row -> Prop := Forall2 lrel.
Definition kvrel (a : string * gvalue) (b : string * value) : Prop := fst a = fst b /\ vrel (snd a) (snd b).
Inductive crel : @cfgval (list Row) -> @cfgval Row -> Prop :=
| cr_leaf v w : vrel v w -> crel (Leaf v) (Leaf w)
| cr_sub d e : Forall2 kvrel d e -> crel (Sub d) (Sub e).
Definition erel (a : string * @cfgval (list Row)) (b : string * @cfgval Row) : Prop := fst a = fst b /\ crel (snd a) (snd b).
Inductive mrel : @msg (list Row) -> @msg Row -> Prop :=
| mr_none : mrel MNone MNone
| mr_bad : mrel MBad MBad
| mr_dict r q : Forall2 erel r q -> mrel (MDict r) (MDict q).
Definition orel (a : option (list (list Row))) (b : option (list Row)) : Prop :=
  match a, b with Some x, Some y => y = List.concat x | None, None => True | _, _ => False end.
Definition brel : @batch (list Row) -> @batch Row -> Prop := Forall2 (fun a b => fst a = fst b /\ orel (snd a) (snd b)).
Definition pcrel (a : @cpc (list Row)) (b : @cpc Row) : Prop :=
  match a, b with
  | CTop, CTop | CTest, CTest | CGet, CGet | CJoin, CJoin | CDone, CDone => True
  | CHave m, CHave n => mrel m n
  | _, _ => False
  end.
Definition xrel (a : @comb (list Row)) (b : @comb Row) : Prop :=
  pcrel (c_pc a) (c_pc b) /\ rrel (c_res a) (c_res b) /\ c_n a = c_n b /\ Forall2 rrel (c_thr a) (c_thr b).
Definition wrel (a : @wpc (list Row)) (b : @wpc Row) : Prop :=
  match a, b with
  | WTop, WTop | WTest, WTest | WGate, WGate | WGet, WGet | WDone, WDone => True
  | WHave x, WHave y => brel x y
  | WWriting x, WWriting y => brel x y
  | _, _ => False
  end.
(** the rows of a list of tables *)
Definition expand (l : list (string * list Row)) : list (string * Row) := flat_map (fun t => map (pair (fst t)) (snd t)) l.

Record srel (g : @state Job (list Row)) (s : @state Job Row) : Prop := mksrel {
  r_todo : todo g = todo s; r_running : running g = running s; r_queue : Forall2 mrel (queue g) (queue s);
  r_combs : Forall2 xrel (combs g) (combs s); r_outq : Forall2 brel (outq g) (outq s); r_writers : Forall2 wrel (writers g) (writers s);
  r_store : store s = expand (store g);
  r_wait : should_wait g = should_wait s; r_stop : should_stop g = should_stop s; r_stop_ : stop_ g = stop_ s; r_ready : ready g = ready s;
  r_main : main g = main s }.

Lemma dget_rrel k a b : rrel a b ->
  match dget string_dec k a, dget string_dec k b with Some x, Some y => Forall2 vrel x y | None, None => True | _, _ => False end.
Proof.
  induction 1 as [|[k1 v1] [k2 v2] a b [E V] H IH]; cbn; [exact I|]. cbn in E, V. subst k2. destruct (string_dec k k1); [exact V|exact IH].
Qed.
Lemma dset_rrel k x y a b : rrel a b -> Forall2 vrel x y -> rrel (dset string_dec k x a) (dset string_dec k y b).
Proof.
  intros H V. induction H as [|[k1 v1] [k2 v2] a b [E V'] H IH]; cbn.
  - constructor; [split; auto|constructor].
  - cbn in E, V'. subst k2. destruct (string_dec k k1); constructor; try (split; assumption); try assumption; split; auto.
Qed.
Lemma dappend_rrel k v w a b : rrel a b -> vrel v w -> rrel (dappend k v a) (dappend k w b).
Proof.
  intros H V. unfold dappend. apply dset_rrel; [exact H|]. assert (D := dget_rrel k a b H).
  destruct (dget string_dec k a), (dget string_dec k b); try contradiction; [apply Forall2_app; [exact D|]|]; auto.
Qed.
Lemma entry_keys_rel a b : erel a b -> Forall2 kvrel (entry_keys a) (entry_keys b).
Proof.
  destruct a as [k c], b as [k' c']. intros [E C]. cbn in E, C. subst k'. unfold entry_keys.
  destruct C as [v w V|d e D].
  - destruct (startswith "const__" k); repeat constructor; cbn; auto.
  - destruct (startswith "const__" k); [repeat constructor; cbn; auto|].
    induction D as [|x y d e [X Y] D IH]; cbn; [constructor|]. constructor; [|exact IH]. split; [cbn; rewrite X; reflexivity|exact Y].
Qed.
Lemma collect_rrel a b r q : rrel a b -> Forall2 erel r q -> rrel (collect a r) (collect b q).
Proof.
  intros H E. unfold collect. assert (K : Forall2 kvrel (flat_map entry_keys r) (flat_map entry_keys q)).
  { induction E; cbn; [constructor|]. apply Forall2_app; [apply entry_keys_rel; assumption|assumption]. }
  clear E. revert a b H. induction K as [|x y l m [X Y] K IH]; intros a b H; cbn; [exact H|]. apply IH. rewrite X. apply dappend_rrel; assumption.
Qed.
Lemma concat_rows_rel l m : Forall2 vrel l m -> orel (concat_rows l) (concat_rows m).
Proof.
  induction 1 as [|v w l m V H IH]; cbn; [reflexivity|]. destruct V; cbn; try exact I.
  destruct (concat_rows l), (concat_rows m); cbn in *; try contradiction; [|exact I]. rewrite IH. now rewrite concat_app.
Qed.
Lemma series_rows_rel l m : Forall2 vrel l m -> orel (series_rows l) (series_rows m).
Proof.
  induction 1 as [|v w l m V H IH]; cbn; [reflexivity|]. destruct V; cbn; try exact I.
  destruct (series_rows l), (series_rows m); cbn in *; try contradiction; [|exact I]. now rewrite IH.
Qed.
Lemma combine_rel a b : rrel a b ->
  match combine_results a, combine_results b with Some x, Some y => brel x y | None, None => True | _, _ => False end.
Proof.
  induction 1 as [|[k v] [k' w] a b [E V] H IH]; cbn [combine_results]; [constructor|]. cbn in E, V. subst k'.
  destruct V as [|x y l m X V]; [exact IH|]. assert (C := concat_rows_rel (x :: l) (y :: m) (Forall2_cons _ _ X V)).
  assert (Q := series_rows_rel (x :: l) (y :: m) (Forall2_cons _ _ X V)).
  destruct X.
  - destruct (concat_rows (Frame fs :: l)), (concat_rows (Frame (List.concat fs) :: m)); cbn in C; try contradiction.
    + destruct (combine_results a), (combine_results b); try contradiction; [|exact I]. constructor; [|exact IH]. split; [reflexivity|exact C].
    + exact I.
  - destruct (combine_results a), (combine_results b); cbn [option_map]; try contradiction; [|exact I]. constructor; [|exact IH]. split; [reflexivity|exact Q].
  - destruct (combine_results a), (combine_results b); cbn [option_map]; try contradiction; [|exact I]. constructor; [|exact IH]. split; [reflexivity|exact Q].
Qed.

Lemma set_comb_rel c x y g s : srel g s -> xrel x y -> srel (set_comb c x g) (set_comb c y s).
Proof. intros [] X. constructor; cbn; auto. apply Forall2_upd; assumption. Qed.
Lemma set_writer_rel c x y g s : srel g s -> wrel x y -> srel (set_writer c x g) (set_writer c y s).
Proof. intros [] X. constructor; cbn; auto. apply Forall2_upd; assumption. Qed.
Lemma set_queue_rel x y g s : srel g s -> Forall2 mrel x y -> srel (set_queue x g) (set_queue y s).
Proof. intros [] X. constructor; cbn; auto. Qed.
Lemma set_outq_rel x y g s : srel g s -> Forall2 brel x y -> srel (set_outq x g) (set_outq y s).
Proof. intros [] X. constructor; cbn; auto. Qed.
Lemma set_flags_rel a b c d g s : srel g s -> srel (set_flags a b c d g) (set_flags a b c d s).
Proof. intros []. constructor; cbn; auto. Qed.
Lemma set_main_rel m g s : srel g s -> srel (set_main m g) (set_main m s).
Proof. intros []. constructor; cbn; auto. Qed.
Lemma set_jobs_rel a b g s : srel g s -> srel (set_jobs a b g) (set_jobs a b s).
Proof. intros []. constructor; cbn; auto. Qed.
Lemma increase_rel e g s : srel g s -> srel (increase_cnt e g) (increase_cnt e s).
Proof. intros []. constructor; cbn; auto. Qed.
Lemma expand_app l m : expand (l ++ m) = expand l ++ expand m.
Proof. unfold expand. apply flat_map_app. Qed.
Lemma expand_key k fs : expand (map (pair k) fs) = map (pair k) (List.concat fs).
Proof. induction fs as [|f fs IH]; cbn; [reflexivity|]. rewrite map_app. f_equal. exact IH. Qed.
Lemma add_store_rel k fs g s : srel g s -> srel (add_store (map (pair k) fs) g) (add_store (map (pair k) (List.concat fs)) s).
Proof. intros []. constructor; cbn; auto. rewrite expand_app, expand_key, r_store0. reflexivity. Qed.

Variable p : @params Job Row.
Variable gp : @params Job (list Row).
Hypothesis SW : n_worker gp = n_worker p.
Hypothesis SC : n_combiner gp = n_combiner p.
Hypothesis SS : n_writer gp = n_writer p.
Hypothesis CH : chunk gp = chunk p.
Hypothesis CA : cache gp = cache p.
Hypothesis WH : forall j, Forall2 mrel (worker_put (what gp j)) (worker_put (what p j)).

Lemma flush_rel x y : xrel x y -> xrel (flush x) (flush y).
Proof.
  intros (_ & R & _ & T). split; [exact I|]. split; [constructor|]. split; [reflexivity|]. cbn.
  rewrite (Forall2_isnil _ _ _ R). destruct (isnil (c_res y)); [exact T|]. apply Forall2_app; [exact T|]. constructor; [exact R|constructor].
Qed.

Definition ok (g : option (@state Job (list Row))) (s : option (@state Job Row)) : Prop :=
  match g, s with Some g, Some s => srel g s | None, None => True | _, _ => False end.

Lemma comb_step_rel c x y g s : srel g s -> xrel x y -> ok (comb_step gp c x g) (comb_step p c y s).
Proof.
  intros S X. destruct x as [pc r n t], y as [pc' r' n' t']. destruct X as (P & R & N & T). cbn [c_pc c_res c_n c_thr] in *. subst n'.
  assert (Q := r_queue _ _ S). unfold comb_step. cbn [c_pc c_res c_n c_thr].
  assert (XR : forall a b, pcrel a b -> xrel (mkcomb a r n t) (mkcomb b r' n t')) by (intros; repeat split; assumption).
  destruct pc as [| | |m| |], pc' as [| | |m'| |]; cbn in P; try contradiction.
  - rewrite (r_stop _ _ S), (Forall2_isnil _ _ _ Q). destruct (should_stop s && isnil (queue s)); apply set_comb_rel; auto; apply XR; exact I.
  - rewrite (r_stop_ _ _ S). destruct (stop_ s); (apply set_comb_rel; [exact S|]); [apply XR; exact I|]. repeat split; auto. constructor.
  - rewrite CH. destruct (Nat.ltb n (chunk p)).
    + destruct Q as [|a b q q' M Q]; [exact I|]. apply set_comb_rel; [apply set_queue_rel; assumption|]. apply XR. exact M.
    + apply set_comb_rel; [exact S|]. apply flush_rel. apply XR. exact I.
  - destruct P as [| |d d' D]; cbn [ok].
    + apply set_comb_rel; [apply increase_rel; exact S|apply XR; exact I].
    + apply set_comb_rel; [exact S|]. repeat split; auto. constructor.
    + apply set_comb_rel; [apply increase_rel; exact S|]. repeat split; auto. cbn. apply collect_rrel; assumption.
  - rewrite (Forall2_isnil _ _ _ T). destruct (isnil t'); [|exact I]. apply set_comb_rel; [exact S|]. repeat split; auto. constructor.
  - exact I.
Qed.

Lemma writer_step_rel w x y g s : srel g s -> wrel x y -> ok (writer_step gp w x g) (writer_step p w y s).
Proof.
  intros S X. assert (Q := r_outq _ _ S). unfold writer_step, write_failed.
  destruct x as [| | | |b|b|], y as [| | | |b'|b'|]; cbn in X; try contradiction.
  - rewrite (r_ready _ _ S), (Forall2_isnil _ _ _ Q). destruct (ready s && isnil (outq s)); apply set_writer_rel; auto; exact I.
  - rewrite (r_stop_ _ _ S). destruct (stop_ s); apply set_writer_rel; auto; exact I.
  - apply set_writer_rel; [|exact I]. rewrite CA, (Forall2_len _ _ _ Q), (r_stop _ _ S), (r_stop_ _ _ S), (r_ready _ _ S). apply set_flags_rel. exact S.
  - destruct Q as [|a b q q' B Q]; [exact I|]. apply set_writer_rel; [apply set_outq_rel; assumption|exact B].
  - assert (L : locked g = locked s).
    { unfold locked. apply (Forall2_existsb wrel); [|apply (r_writers _ _ S)].
      intros u v V. destruct u, v; cbn in V; try contradiction; reflexivity. }
    rewrite L. destruct (locked s); [exact I|]. apply set_writer_rel; [exact S|exact X].
  - destruct X as [|[k o] [k' o'] b b' [E O] X].
    + apply set_writer_rel; [exact S|exact I].
    + cbn in E, O. subst k'. destruct o as [fs|], o' as [rs|]; cbn in O; try contradiction.
      * subst rs. apply set_writer_rel; [apply add_store_rel; exact S|exact X].
      * apply set_writer_rel; [|exact I]. rewrite (r_stop _ _ S), (r_ready _ _ S). apply set_flags_rel. exact S.
  - exact I.
Qed.

Lemma step_rel e g s : srel g s -> ok (step gp e g) (step p e s).
Proof.
  intros S. assert (Q := r_queue _ _ S). assert (C := r_combs _ _ S). assert (W := r_writers _ _ S). assert (O := r_outq _ _ S). destruct e; cbn [step].
  - rewrite (r_todo _ _ S), (r_running _ _ S), (r_wait _ _ S), SW. destruct (nth_error (todo s) i); [|exact I].
    destruct (should_wait s && Nat.ltb (List.length (running s)) (n_worker p)); [|exact I]. apply set_jobs_rel. exact S.
  - rewrite (r_todo _ _ S), (r_running _ _ S). destruct (nth_error (running s) i); [|exact I].
    apply set_queue_rel; [apply set_jobs_rel; exact S|]. apply Forall2_app; [exact Q|apply WH].
  - assert (N := Forall2_nth _ _ _ C c). destruct (nth_error (combs g) c), (nth_error (combs s) c); try contradiction; [|exact I]. apply comb_step_rel; assumption.
  - assert (N := Forall2_nth _ _ _ C c). destruct (nth_error (combs g) c) as [x|], (nth_error (combs s) c) as [y|]; try contradiction; [|exact I].
    assert (F := flush_rel x y N). destruct N as (P & _ & N & _). rewrite N, CH.
    destruct (c_pc x), (c_pc y); cbn in P; try contradiction; try exact I.
    destruct (Nat.ltb (c_n y) (chunk p)); [|exact I]. apply set_comb_rel; assumption.
  - assert (N := Forall2_nth _ _ _ C c). destruct (nth_error (combs g) c) as [x|], (nth_error (combs s) c) as [y|]; try contradiction; [|exact I].
    destruct N as (P & R & N & T). assert (K := Forall2_nth _ _ _ T i). destruct (nth_error (c_thr x) i) as [a|], (nth_error (c_thr y) i) as [b|]; try contradiction; [|exact I].
    assert (Z : srel (set_comb c (mkcomb (c_pc x) (c_res x) (c_n x) (del i (c_thr x))) g) (set_comb c (mkcomb (c_pc y) (c_res y) (c_n y) (del i (c_thr y))) s)).
    { apply set_comb_rel; [exact S|]. repeat split; cbn; auto. apply Forall2_del. exact T. }
    assert (B := combine_rel a b K). cbn zeta. destruct (combine_results a), (combine_results b); try contradiction; [|exact Z].
    apply set_outq_rel; [exact Z|]. apply Forall2_app; [exact O|]. constructor; [exact B|constructor].
  - assert (N := Forall2_nth _ _ _ W w). destruct (nth_error (writers g) w), (nth_error (writers s) w); try contradiction; [|exact I]. apply writer_step_rel; assumption.
  - assert (N := Forall2_nth _ _ _ W w). destruct (nth_error (writers g) w) as [x|], (nth_error (writers s) w) as [y|]; try contradiction; [|exact I].
    destruct x, y; cbn in N; try contradiction; try exact I. apply set_writer_rel; [exact S|exact I].
  - assert (N := Forall2_nth _ _ _ W w). destruct (nth_error (writers g) w) as [x|], (nth_error (writers s) w) as [y|]; try contradiction; [|exact I].
    destruct x, y; cbn in N; try contradiction; try exact I. unfold write_failed. apply set_writer_rel; [|exact I].
    rewrite (r_stop _ _ S), (r_ready _ _ S). apply set_flags_rel. exact S.
  - rewrite (r_main _ _ S), (r_todo _ _ S), (r_running _ _ S), (r_wait _ _ S), (r_stop _ _ S), (r_stop_ _ _ S), (r_ready _ _ S). destruct (main s).
    + destruct (isnil (todo s) && isnil (running s)); [|exact I]. apply set_main_rel, set_flags_rel. exact S.
    + assert (E : forallb (fun x => match c_pc x with CDone => true | _ => false end) (combs g) = forallb (fun x => match c_pc x with CDone => true | _ => false end) (combs s)).
      { apply (Forall2_forallb xrel); [|exact C]. intros x y [H _]. destruct (c_pc x), (c_pc y); cbn in H; try contradiction; reflexivity. }
      rewrite E. destruct (forallb _ (combs s)); [|exact I]. apply set_main_rel, set_flags_rel. exact S.
    + assert (E : forallb (fun x => match x with WDone => true | _ => false end) (writers g) = forallb (fun x => match x with WDone => true | _ => false end) (writers s)).
      { apply (Forall2_forallb wrel); [|exact W]. intros x y H. destruct x, y; cbn in H; try contradiction; reflexivity. }
      rewrite E. destruct (forallb _ (writers s)); [|exact I]. apply set_main_rel, set_flags_rel. exact S.
    + exact I.
  - rewrite (r_main _ _ S), (r_wait _ _ S), (r_ready _ _ S). destruct (main s); try exact I. apply set_flags_rel. exact S.
Qed.

Lemma run_rel es : forall g s, srel g s -> ok (run gp es g) (run p es s).
Proof.
  induction es as [|e es IH]; intros g s S; cbn [run]; [exact S|]. assert (R := step_rel e g s S).
  destruct (step gp e g), (step p e s); cbn in R; try contradiction; [|exact I]. apply IH. exact R.
Qed.
Lemma init_rel jobs : srel (init gp jobs) (init p jobs).
Proof.
  constructor; cbn; auto.
  - rewrite SC. apply Forall2_repeat. repeat split; constructor.
  - rewrite SS. apply Forall2_repeat. exact I.
Qed.
End Sim.

(** ** the pipeline in which every table is one row *)
Section Ghost.
Context {Job Row : Type}.
Definition gval (v : @value Row) : @value (list Row) := match v with Frame rs => Frame [rs] | Scalar r => Scalar [r] | Obj => Obj end.
Definition gcfg (c : @cfgval Row) : @cfgval (list Row) := match c with Leaf v => Leaf (gval v) | Sub d => Sub (map (fun kv => (fst kv, gval (snd kv))) d) end.
Definition gres (r : @result Row) : @result (list Row) := map (fun e => (fst e, gcfg (snd e))) r.
Definition gmsg (m : @msg Row) : @msg (list Row) := match m with MNone => MNone | MDict r => MDict (gres r) | MBad => MBad end.
Definition gout (o : @outcome Row) : @outcome (list Row) := match o with NoData => NoData | Raises => Raises | Returns m => Returns (gmsg m) end.
Definition gparams (p : @params Job Row) : @params Job (list Row) :=
  mkparams (n_worker p) (n_combiner p) (n_writer p) (chunk p) (cache p) (fun j => gout (what p j)).

Lemma gval_rel v : vrel (gval v) v.
Proof. destruct v; cbn; try constructor. rewrite <- (app_nil_r rows) at 2. exact (vr_frame [rows]). Qed.
Lemma gres_rel r : Forall2 erel (gres r) r.
Proof.
  induction r as [|[k c] r IH]; cbn; constructor; [|exact IH]. split; [reflexivity|]. cbn. destruct c; cbn; constructor.
  - apply gval_rel.
  - induction d as [|[n v] d IHd]; cbn; constructor; [|exact IHd]. split; [reflexivity|apply gval_rel].
Qed.
Lemma gput_rel o : Forall2 mrel (worker_put (gout o)) (worker_put o).
Proof. destruct o as [| |m]; cbn; repeat constructor. destruct m; cbn; constructor. apply gres_rel. Qed.

(** every execution has a ghost *)
Lemma ghost_run (p : @params Job Row) jobs es s : executes p jobs es s ->
  exists g, executes (gparams p) jobs es g /\ main g = main s /\ store s = expand (store g).
Proof.
  unfold executes. intros X. assert (R := run_rel p (gparams p) eq_refl eq_refl eq_refl (fun j => gput_rel (what p j)) es _ _ (init_rel p (gparams p) eq_refl eq_refl jobs)).
  rewrite X in R. destruct (run (gparams p) es (init (gparams p) jobs)) as [g|]; [|contradiction]. exists g. split; [reflexivity|].
  destruct R. auto.
Qed.

Lemma layers_gres r : layers (gres r) = map (fun kv => (fst kv, gval (snd kv))) (layers r).
Proof.
  unfold layers, gres. induction r as [|[k c] r IH]; [reflexivity|]. cbn [map flat_map fst snd]. rewrite map_app, IH. f_equal. destruct c; cbn [gcfg]; [reflexivity|].
  rewrite !map_map. reflexivity.
Qed.
Lemma gres_in k c r : In (k, c) (gres r) -> exists c', In (k, c') r /\ c = gcfg c'.
Proof. intros H. apply in_map_iff in H as ([k' c'] & E & H). injection E as <- <-. eauto. Qed.
Lemma good_gout kind (o : @outcome Row) : good_task kind o -> good_task kind (gout o).
Proof.
  destruct o as [| |[]]; cbn; auto. intros (N & U1 & U2). split; [|split].
  - intros n c H. apply gres_in in H as (c' & H & _). exact (N n c' H).
  - intros n d H. apply gres_in in H as (c' & H & E). destruct c'; [discriminate|]. exact (U1 _ _ H).
  - intros k v H. rewrite layers_gres in H. apply in_map_iff in H as ([k' v'] & E & H). cbn in E. injection E as <- <-.
    specialize (U2 _ _ H). destruct v'; exact U2.
Qed.
End Ghost.
