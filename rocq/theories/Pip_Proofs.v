(** Conservation of rows and counters in the pipeline. *)
From Coq Require Import List Arith Bool String Ascii Lia Permutation.
From Verif Require Import Base Base_Proofs Str_Model Str_Proofs Perm_Tac Pip_Model Pip_Spec.
Import ListNotations.
Local Open Scope list_scope.

Lemma flat_map_del {A B} (f : A -> list B) l i x : nth_error l i = Some x ->
  Permutation (flat_map f l) (f x ++ flat_map f (del i l)).
Proof.
  revert i. induction l as [|y l IH]; intros [|i] H; simpl in *; try discriminate.
  - inversion H; subst. reflexivity.
  - rewrite (IH i H). perm.
Qed.
Lemma flat_map_upd {A B} (f : A -> list B) l i x y : nth_error l i = Some x ->
  Permutation (flat_map f (upd i y l)) (f y ++ flat_map f (del i l)).
Proof.
  revert i. induction l as [|z l IH]; intros [|i] H; simpl in *; try discriminate.
  - reflexivity.
  - rewrite (IH i H). perm.
Qed.
Lemma upd_length {A} i (x : A) l : List.length (upd i x l) = List.length l.
Proof. revert i. induction l as [|y l IH]; intros [|i]; simpl; auto. Qed.
Lemma upd_in {A} i (x : A) l z : In z (upd i x l) -> z = x \/ In z l.
Proof.
  revert i. induction l as [|y l IH]; intros [|i] H; simpl in *; try tauto.
  - destruct H as [<-|H]; auto.
  - destruct H as [<-|H]; [auto|]. apply IH in H. tauto.
Qed.
Lemma upd_in_at {A} i (x y : A) l : nth_error l i = Some y -> In x (upd i x l).
Proof. revert i. induction l as [|z l IH]; intros [|i] H; simpl in *; try discriminate; eauto. Qed.
Lemma nth_upd_same {A} i (x y : A) l : nth_error l i = Some y -> nth_error (upd i x l) i = Some x.
Proof. revert i. induction l as [|z l IH]; intros [|i] H; simpl in *; try discriminate; eauto. Qed.
Lemma nth_upd_other {A} i j (x : A) l : i <> j -> nth_error (upd i x l) j = nth_error l j.
Proof.
  revert i j. induction l as [|z l IH]; intros [|i] [|j] H; simpl; try reflexivity; [congruence|]. apply IH. congruence.
Qed.
Lemma del_in {A} i (l : list A) z : In z (del i l) -> In z l.
Proof. revert i. induction l as [|y l IH]; intros [|i] H; simpl in *; try tauto. destruct H as [<-|H]; eauto. Qed.
Lemma nth_in {A} (l : list A) i x : nth_error l i = Some x -> In x l.
Proof. apply nth_error_In. Qed.

Section P.
Context {Job Row : Type}.
Notation value := (@value Row).
Notation result := (@result Row).
Notation results := (@results Row).
Notation state := (@state Job Row).
Notation params := (@params Job Row).
Notation krow := (string * Row)%type.

Definition krows (kv : string * value) : list krow := map (pair (fst kv)) (val_rows (snd kv)).
Definition mrows (m : @msg Row) : list krow :=
  match m with MDict r => flat_map krows (flat_map entry_keys r) | _ => [] end.
Definition crows (kv : string * list value) : list krow := flat_map (fun v => krows (fst kv, v)) (snd kv).
Definition rrows (rs : results) : list krow := flat_map crows rs.
Definition brows (b : @batch Row) : list krow :=
  flat_map (fun kv => match snd kv with Some rows => map (pair (fst kv)) rows | None => [] end) b.
Definition pcrows (c : @cpc Row) : list krow := match c with CHave m => mrows m | _ => [] end.
Definition xrows (x : @comb Row) : list krow := pcrows (c_pc x) ++ rrows (c_res x) ++ flat_map rrows (c_thr x).
Definition wrows (w : @wpc Row) : list krow := match w with WHave b | WWriting b => brows b | _ => [] end.
Definition jrows (p : params) (j : Job) : list krow := flat_map mrows (worker_put (what p j)).
Definition allrows (p : params) (s : state) : list krow :=
  flat_map (jrows p) (todo s) ++ flat_map (jrows p) (running s) ++ flat_map mrows (queue s)
  ++ flat_map xrows (combs s) ++ flat_map brows (outq s) ++ flat_map wrows (writers s) ++ store s.

Arguments rrows !rs.
Arguments brows !b.
Arguments jrows : simpl never.
(** ** collecting *)
Lemma krows_app k l m : flat_map (fun v => krows (k, v)) (l ++ m) = flat_map (fun v => krows (k, v)) l ++ flat_map (fun v => krows (k, v)) m.
Proof. apply flat_map_app. Qed.
Lemma rrows_dappend k v d : Permutation (rrows (dappend k v d)) (rrows d ++ krows (k, v)).
Proof.
  unfold dappend, rrows. induction d as [|[k' l] d IH]; simpl.
  - unfold crows. simpl. rewrite !app_nil_r. reflexivity.
  - destruct (string_dec k k') as [<-|Hn]; simpl.
    + unfold crows at 1. cbn [fst snd]. rewrite krows_app. cbn [flat_map]. rewrite app_nil_r. unfold crows at 2. cbn [fst snd]. perm.
    + rewrite IH. perm.
Qed.
Lemma rrows_collect rs r : Permutation (rrows (collect rs r)) (rrows rs ++ mrows (MDict r)).
Proof.
  unfold collect, mrows. generalize (flat_map entry_keys r) as l. intros l. revert rs.
  induction l as [|[k v] l IH]; intros rs; simpl; [rewrite app_nil_r; reflexivity|].
  rewrite IH, rrows_dappend. perm.
Qed.

(** ** combining *)
Lemma concat_rows_value (l : list value) (rows : list Row) : concat_rows l = Some rows -> flat_map val_rows l = rows.
Proof.
  revert rows. induction l as [|[rs|x|] l IH]; intros rows H; simpl in *; try discriminate; [congruence|].
  destruct (concat_rows l) as [q|]; [|discriminate]. simpl in H. inversion H. rewrite (IH q eq_refl). reflexivity.
Qed.
Lemma series_rows_value (l : list value) (rows : list Row) : series_rows l = Some rows -> flat_map val_rows l = rows.
Proof.
  revert rows. induction l as [|[rs|x|] l IH]; intros rows H; simpl in *; try discriminate; [congruence|].
  destruct (series_rows l) as [q|]; [|discriminate]. simpl in H. inversion H. rewrite (IH q eq_refl). reflexivity.
Qed.
Lemma crows_map k (l : list value) : crows (k, l) = map (pair k) (flat_map val_rows l).
Proof. unfold crows. cbn [fst snd]. induction l as [|v l IH]; simpl; [reflexivity|]. rewrite map_app, IH. reflexivity. Qed.

Lemma combine_rows (rs : results) : forall b, combine_results rs = Some b -> exists lost : list krow, Permutation (rrows rs) (brows b ++ lost).
Proof.
  induction rs as [|[k l] rs IH]; intros b H; [inversion H; exists []; reflexivity|].
  cbn [combine_results] in H. unfold rrows. cbn [flat_map]. rewrite crows_map.
  destruct l as [|v l]; [exact (IH b H)|].
  destruct v as [rows|x|].
  - destruct (concat_rows (Frame rows :: l)) as [q|] eqn:Q; [|discriminate]. destruct (combine_results rs) as [out|]; [|discriminate].
    inversion H; subst. destruct (IH out eq_refl) as [lost L]. exists lost. apply concat_rows_value in Q. rewrite Q.
    fold (rrows rs). rewrite L. unfold brows. cbn [flat_map fst snd]. perm.
  - destruct (combine_results rs) as [out|]; [|discriminate]. cbn [option_map] in H.
    assert (Hb : b = (k, series_rows (Scalar x :: l)) :: out) by congruence. subst b. clear H.
    destruct (IH out eq_refl) as [lost L]. fold (rrows rs). destruct (series_rows (Scalar x :: l)) as [q|] eqn:Q.
    + exists lost. apply series_rows_value in Q. rewrite Q, L. unfold brows. cbn [flat_map fst snd].
      perm.
    + exists (map (pair k) (flat_map val_rows (Scalar x :: l)) ++ lost). rewrite L. unfold brows. cbn [flat_map fst snd]. perm.
  - destruct (combine_results rs) as [out|]; [|discriminate]. cbn [option_map] in H. inversion H; subst. clear H.
    destruct (IH out eq_refl) as [lost L]. fold (rrows rs).
    exists (map (pair k) (flat_map val_rows (Obj :: l)) ++ lost). rewrite L. unfold brows. cbn [flat_map fst snd series_rows]. perm.
Qed.

(** ** one step: rows are moved, and possibly lost, never created *)
Definition noloss (p : params) (e : event) (s : state) : Prop :=
  match e with
  | CStep c => match nth_error (combs s) c with
               | Some x => match c_pc x with CTest => c_res x = [] | CHave MBad => False | _ => True end
               | None => True end
  | CThread c i => match nth_error (combs s) c with
               | Some x => match nth_error (c_thr x) i with
                           | Some rs => exists b, combine_results rs = Some b /\ Permutation (rrows rs) (brows b)
                           | None => True end
               | None => True end
  | SStep w => match nth_error (writers s) w with Some (WWriting ((_, None) :: _)) => False | _ => True end
  | SFail _ => False
  | _ => True
  end.

Lemma pull {A} (l m n : list A) lost : Permutation l m -> Permutation n m -> lost = [] -> Permutation l (n ++ lost).
Proof. intros H1 H2 ->. rewrite app_nil_r. transitivity m; [exact H1|symmetry; exact H2]. Qed.

Ltac nolost := exists []; split; [rewrite app_nil_r|reflexivity].

Lemma combs_move (s : state) c x y L : nth_error (combs s) c = Some x -> Permutation (xrows x) (xrows y ++ L) ->
  Permutation (flat_map xrows (combs s)) (flat_map xrows (upd c y (combs s)) ++ L).
Proof. intros H P. rewrite (flat_map_del _ _ _ _ H), (flat_map_upd _ _ _ _ y H), P. perm. Qed.
Lemma writers_move (s : state) w x y L : nth_error (writers s) w = Some x -> Permutation (wrows x) (wrows y ++ L) ->
  Permutation (flat_map wrows (writers s)) (flat_map wrows (upd w y (writers s)) ++ L).
Proof. intros H P. rewrite (flat_map_del _ _ _ _ H), (flat_map_upd _ _ _ _ y H), P. perm. Qed.

Lemma flush_rows x : pcrows (c_pc x) = [] -> Permutation (xrows x) (xrows (flush x) ++ []).
Proof.
  intros H. unfold flush, xrows. rewrite H. destruct (c_res x) as [|kv r]; cbn [isnil c_pc c_res c_thr pcrows].
  - rewrite app_nil_r. reflexivity.
  - rewrite flat_map_app. change (rrows []) with (@nil krow). cbn [flat_map]. perm.
Qed.

Lemma step_rows p e (s s' : state) : step p e s = Some s' ->
  exists lost, Permutation (allrows p s) (allrows p s' ++ lost) /\ (noloss p e s -> lost = []).
Proof.
  intros H. destruct e; cbn [step] in H.
  - (* WStart *)
    destruct (nth_error (todo s) i) as [j|] eqn:E; [|discriminate].
    destruct (should_wait s && Nat.ltb (List.length (running s)) (n_worker p)); [|discriminate]. inversion H; subst. exists []. split; [|reflexivity].
    unfold allrows, set_jobs. cbn. rewrite (flat_map_del _ _ _ _ E), flat_map_app. cbn [flat_map]. perm.
  - (* WFinish *)
    destruct (nth_error (running s) i) as [j|] eqn:E; [|discriminate]. inversion H; subst. exists []. split; [|reflexivity].
    unfold allrows, set_queue, set_jobs. cbn. rewrite (flat_map_del _ _ _ _ E), flat_map_app.
    change (jrows p j) with (flat_map mrows (worker_put (what p j))). perm.
  - (* CStep *)
    destruct (nth_error (combs s) c) as [x|] eqn:E; [|discriminate]. unfold comb_step in H. cbn [noloss]. rewrite E.
    destruct (c_pc x) as [| | |m| |] eqn:Epc.
    + exists []. split; [|reflexivity].
      assert (Q : exists pc, Some s' = Some (set_comb c (mkcomb pc (c_res x) (c_n x) (c_thr x)) s) /\ pcrows pc = []).
      { destruct (should_stop s && isnil (queue s)); inversion H; subst; eexists; (split; [reflexivity|reflexivity]). }
      destruct Q as (pc & Q & Z). inversion Q; subst. unfold allrows, set_comb. cbn.
      rewrite (combs_move s c x (mkcomb pc (c_res x) (c_n x) (c_thr x)) [] E); [perm|].
      unfold xrows. rewrite Epc. cbn. rewrite Z. perm.
    + destruct (stop_ s).
      * exists []. split; [|reflexivity]. inversion H; subst. unfold allrows, set_comb. cbn.
        rewrite (combs_move s c x (mkcomb CJoin (c_res x) (c_n x) (c_thr x)) [] E); [perm|]. unfold xrows. rewrite Epc. cbn. perm.
      * exists (rrows (c_res x)). split; [|intros Z; rewrite Z; reflexivity]. inversion H; subst. unfold allrows, set_comb. cbn.
        rewrite (combs_move s c x (mkcomb CGet [] 0 (c_thr x)) (rrows (c_res x)) E); [perm|]. unfold xrows. rewrite Epc. cbn. perm.
    + exists []. split; [|reflexivity]. destruct (Nat.ltb (c_n x) (chunk p)).
      * destruct (queue s) as [|m q] eqn:Eq; [discriminate|]. inversion H; subst. unfold allrows, set_comb, set_queue. cbn. rewrite Eq.
        cbn [flat_map].
        rewrite (flat_map_del _ _ _ _ E), (flat_map_upd _ _ _ _ (mkcomb (CHave m) (c_res x) (c_n x) (c_thr x)) E).
        unfold xrows at 1 3. rewrite Epc. cbn. perm.
      * inversion H; subst. unfold allrows, set_comb. cbn. rewrite (combs_move s c x (flush x) [] E); [perm|].
        apply flush_rows. rewrite Epc. reflexivity.
    + destruct m as [|r|].
      * exists []. split; [|reflexivity]. inversion H; subst. unfold allrows, set_comb, increase_cnt. cbn.
        rewrite (combs_move s c x (mkcomb CGet (c_res x) (c_n x) (c_thr x)) [] E); [perm|]. unfold xrows. rewrite Epc. cbn. perm.
      * exists []. split; [|reflexivity]. inversion H; subst. unfold allrows, set_comb, increase_cnt. cbn.
        rewrite (combs_move s c x (mkcomb CGet (collect (c_res x) r) (S (c_n x)) (c_thr x)) [] E); [perm|].
        unfold xrows. rewrite Epc. cbn [c_pc c_res c_thr pcrows]. rewrite rrows_collect. perm.
      * exists (rrows (c_res x)). split; [|tauto]. inversion H; subst. unfold allrows, set_comb. cbn.
        rewrite (combs_move s c x (mkcomb CTop [] 0 (c_thr x)) (rrows (c_res x)) E); [perm|]. unfold xrows. rewrite Epc. cbn. perm.
    + exists []. split; [|reflexivity]. destruct (c_thr x) as [|t l] eqn:Et; [|discriminate]. inversion H; subst.
      unfold allrows, set_comb. cbn. rewrite (combs_move s c x (mkcomb CDone (c_res x) (c_n x) []) [] E); [perm|].
      unfold xrows. rewrite Epc, Et. cbn. perm.
    + discriminate.
  - (* CTimeout *)
    destruct (nth_error (combs s) c) as [x|] eqn:E; [|discriminate]. destruct (c_pc x) eqn:Epc; try discriminate.
    destruct (Nat.ltb (c_n x) (chunk p)); [|discriminate]. inversion H; subst. exists []. split; [|reflexivity].
    unfold allrows, set_comb. cbn. rewrite (combs_move s c x (flush x) [] E); [perm|]. apply flush_rows. rewrite Epc. reflexivity.
  - (* CThread *)
    destruct (nth_error (combs s) c) as [x|] eqn:E; [|discriminate]. destruct (nth_error (c_thr x) i) as [rs|] eqn:Et; [|discriminate].
    set (y := mkcomb (c_pc x) (c_res x) (c_n x) (del i (c_thr x))) in *.
    assert (M : Permutation (xrows x) (xrows y ++ rrows rs)).
    { unfold xrows, y. cbn. rewrite (flat_map_del _ _ _ _ Et). perm. }
    cbn [noloss]. rewrite E, Et. destruct (combine_results rs) as [b|] eqn:Eb.
    + destruct (combine_rows rs b Eb) as [lost L]. 
      assert (Q : exists l', Permutation (rrows rs) (brows b ++ l') /\
                 ((exists b0, Some b = Some b0 /\ Permutation (rrows rs) (brows b0)) -> l' = [])).
      { destruct lost as [|z lost]; [exists []; auto|]. exists (z :: lost). split; [exact L|].
        intros (b0 & Q & P). inversion Q; subst b0. rewrite P in L. exfalso.
        apply Permutation_length in L. rewrite app_length in L. simpl in L. lia. }
      destruct Q as (l' & L' & Z). exists l'. split; [|exact Z]. inversion H; subst. unfold allrows, set_outq, set_comb. cbn.
      rewrite flat_map_app. cbn [flat_map]. rewrite (combs_move s c x y (rrows rs) E M), L'. perm.
    + exists (rrows rs). split; [|intros (b & Q & _); discriminate]. inversion H; subst. unfold allrows, set_comb. cbn.
      rewrite (combs_move s c x y (rrows rs) E M). perm.
  - (* SStep *)
    destruct (nth_error (writers s) w) as [x|] eqn:E; [|discriminate]. unfold writer_step in H. cbn [noloss]. rewrite E.
    destruct x as [| | | |b|[|[k [rows|]] b]|].
    + exists []. split; [|reflexivity]. destruct (ready s && isnil (outq s)); inversion H; subst; unfold allrows, set_writer; cbn;
        [rewrite (writers_move s w WTop WDone [] E)|rewrite (writers_move s w WTop WTest [] E)]; try reflexivity; perm.
    + exists []. split; [|reflexivity]. destruct (stop_ s); inversion H; subst; unfold allrows, set_writer; cbn;
        [rewrite (writers_move s w WTest WDone [] E)|rewrite (writers_move s w WTest WGate [] E)]; try reflexivity; perm.
    + exists []. split; [|reflexivity]. inversion H; subst. unfold allrows, set_writer, set_flags. cbn.
      rewrite (writers_move s w WGate WGet [] E); [perm|reflexivity].
    + exists []. split; [|reflexivity]. destruct (outq s) as [|b q] eqn:Eq; [discriminate|]. inversion H; subst.
      unfold allrows, set_writer, set_outq. cbn. rewrite Eq. cbn [flat_map].
      rewrite (flat_map_del _ _ _ _ E), (flat_map_upd _ _ _ _ (WHave b) E). cbn [wrows]. perm.
    + exists []. split; [|reflexivity]. destruct (locked s); [discriminate|]. inversion H; subst. unfold allrows, set_writer. cbn.
      rewrite (writers_move s w (WHave b) (WWriting b) [] E); [perm|]. cbn. perm.
    + exists []. split; [|reflexivity]. inversion H; subst. unfold allrows, set_writer. cbn.
      rewrite (writers_move s w (WWriting []) WTop [] E); [perm|]. reflexivity.
    + exists []. split; [|reflexivity]. inversion H; subst. unfold allrows, set_writer, add_store. cbn.
      rewrite (writers_move s w (WWriting ((k, Some rows) :: b)) (WWriting b) (map (pair k) rows) E); [perm|].
      cbn [wrows]. unfold brows. cbn [flat_map fst snd]. perm.
    + exists (brows b). split; [|tauto]. inversion H; subst. unfold allrows, write_failed, set_writer, set_flags. cbn.
      rewrite (writers_move s w (WWriting ((k, None) :: b)) WTop (brows b) E); [perm|]. reflexivity.
    + discriminate.
  - (* STimeout *)
    destruct (nth_error (writers s) w) as [x|] eqn:E; [|discriminate]. destruct x; try discriminate. inversion H; subst.
    exists []. split; [|reflexivity]. unfold allrows, set_writer. cbn. rewrite (writers_move s w WGet WTop [] E); [perm|reflexivity].
  - (* SFail *)
    destruct (nth_error (writers s) w) as [x|] eqn:E; [|discriminate]. destruct x as [| | | | |b|]; try discriminate. inversion H; subst.
    exists (brows b). split; [|intros []]. unfold allrows, write_failed, set_writer, set_flags. cbn.
    rewrite (writers_move s w (WWriting b) WTop (brows b) E); [perm|]. cbn. reflexivity.
  - (* Main *)
    exists []. split; [|reflexivity]. rewrite app_nil_r.
    destruct (main s).
    + destruct (isnil (todo s) && isnil (running s)); inversion H; subst; reflexivity.
    + destruct (forallb _ (combs s)); inversion H; subst; reflexivity.
    + destruct (forallb _ (writers s)); inversion H; subst; reflexivity.
    + discriminate.
  - (* Signal *)
    exists []. split; [|reflexivity]. rewrite app_nil_r. destruct (main s); inversion H; subst; reflexivity.
Qed.

Lemma run_app p es fs (s : state) : run p (es ++ fs) s = match run p es s with Some s' => run p fs s' | None => None end.
Proof. revert s. induction es as [|e es IH]; intros s; simpl; [reflexivity|]. destruct (step p e s); [apply IH|reflexivity]. Qed.

Lemma run_rows p es : forall (s s' : state), run p es s = Some s' -> exists lost, Permutation (allrows p s) (allrows p s' ++ lost).
Proof.
  induction es as [|e es IH]; intros s s' H; simpl in H; [inversion H; exists []; rewrite app_nil_r; reflexivity|].
  destruct (step p e s) as [s1|] eqn:E; [|discriminate]. destruct (step_rows p e s s1 E) as (l1 & P1 & _).
  destruct (IH s1 s' H) as [l2 P2]. exists (l2 ++ l1). rewrite P1, P2. perm.
Qed.

Lemma repeat_flat_nil {A B} (f : A -> list B) x n : f x = [] -> flat_map f (repeat x n) = [].
Proof. intros H. induction n; simpl; [reflexivity|]. rewrite H. exact IHn. Qed.
Lemma init_rows p jobs : allrows p (@init Job Row p jobs) = flat_map (jrows p) jobs.
Proof.
  unfold allrows, init. cbn. rewrite !repeat_flat_nil by reflexivity. rewrite !app_nil_r. reflexivity.
Qed.

(** ** keys *)
Lemma startswith_const_inv s : startswith "const__" s = true -> exists n, s = ("const__" ++ n)%string /\ n = drop 7 s.
Proof.
  intros H. unfold startswith in H. apply prefix_iff in H. destruct H as [n H]. exists n. split; [exact H|]. subst s. reflexivity.
Qed.
Lemma lstrip_safe n : safe_name n -> lstrip_chars "const__" ("const__" ++ n) = n.
Proof.
  intros H. change ("const__" ++ n)%string with (String "c" (String "o" (String "n" (String "s" (String "t" (String "_" (String "_" n))))))).
  assert (Z : lstrip_chars "const__" n = n).
  { destruct n as [|c n]; [reflexivity|]. cbn [lstrip_chars]. simpl in H.
    destruct (existsb (Ascii.eqb c) (list_ascii_of_string "const__")) eqn:E; [exfalso|reflexivity].
    apply existsb_exists in E. destruct E as (d & Hd & E). apply Ascii.eqb_eq in E. subst d. simpl in Hd. tauto. }
  simpl. exact Z.
Qed.
Lemma entry_keys_layers kind (r : result) : names_ok r -> uniform kind r -> flat_map entry_keys r = layers r.
Proof.
  intros N [U _]. unfold layers. induction r as [|[cfg c] r IH]; [reflexivity|]. cbn [flat_map fst snd].
  rewrite IH; [|intros n d H; apply (N n d); right; exact H|intros n d H; apply (U n d); right; exact H]. f_equal.
  unfold entry_keys, layer. destruct (startswith "const__" cfg) eqn:E.
  - apply startswith_const_inv in E. destruct E as (n & E & E2). rewrite E in *. destruct c as [v|d].
    + rewrite lstrip_safe; [rewrite <- E2; reflexivity|]. apply (N n (Leaf v)). left; reflexivity.
    + exfalso. apply (U n d). left; reflexivity.
  - destruct c as [v|d]; reflexivity.
Qed.

(** ** the good invariant *)
Section Good.
Variable p : params.
Variable jobs : list Job.
Variable kind : string -> bool.
Hypothesis GT : forall j, In j jobs -> good_task kind (what p j).

Definition okval (k : string) (v : value) : Prop :=
  match v with Frame _ => kind k = true | Scalar _ => kind k = false | Obj => False end.
Definition okres (rs : results) : Prop := forall k l, In (k, l) rs -> l <> [] /\ forall v, In v l -> okval k v.
Definition okmsg (m : @msg Row) : Prop :=
  match m with MDict r => forall k v, In (k, v) (flat_map entry_keys r) -> okval k v | MBad => False | MNone => True end.
Definition okbatch (b : @batch Row) : Prop := forall k o, In (k, o) b -> o <> None.
Definition okcomb (x : @comb Row) : Prop :=
  okres (c_res x) /\ (forall rs, In rs (c_thr x) -> okres rs) /\
  match c_pc x with
  | CHave m => okmsg m
  | CGet => True
  | CDone => c_res x = [] /\ c_thr x = []
  | _ => c_res x = []
  end.
Definition okwriter (w : @wpc Row) : Prop := match w with WHave b | WWriting b => okbatch b | _ => True end.
Definition cdone (x : @comb Row) : Prop := c_pc x = CDone.
Definition cleaving (x : @comb Row) : Prop := c_pc x = CJoin \/ c_pc x = CDone.

Record Good (s : state) : Prop := mkGood {
  g_todo : forall j, In j (todo s ++ running s) -> In j jobs;
  g_queue : forall m, In m (queue s) -> okmsg m;
  g_combs : forall x, In x (combs s) -> okcomb x;
  g_outq : forall b, In b (outq s) -> okbatch b;
  g_writers : forall w, In w (writers s) -> okwriter w;
  g_stop : stop_ s = true -> main s = PEnd;
  g_sstop : should_stop s = true -> main s <> PRun;
  g_main : main s <> PRun -> todo s = [] /\ running s = [];
  g_leave : forall x, In x (combs s) -> cleaving x -> main s <> PRun /\ queue s = [];
  g_ready : ready s = true -> main s = PJoinW \/ main s = PEnd;
  g_joinw : main s = PJoinW \/ main s = PEnd -> forall x, In x (combs s) -> cdone x;
  g_wdone : forall w, In w (writers s) -> w = WDone -> (main s = PJoinW \/ main s = PEnd) /\ outq s = [];
  g_end : main s = PEnd -> forall w, In w (writers s) -> w = WDone;
  g_nc : List.length (combs s) = n_combiner p;
  g_nw : List.length (writers s) = n_writer p }.

Lemma okval_dappend k v d : okres d -> okval k v -> okres (dappend k v d).
Proof.
  intros H Hv. unfold dappend. intros k' l Hi.
  assert (E : (k', l) = (k, match dget string_dec k d with Some l0 => l0 ++ [v] | None => [v] end) \/ In (k', l) d).
  { revert Hi. generalize (match dget string_dec k d with Some l0 => l0 ++ [v] | None => [v] end). intros nv.
    clear. induction d as [|[a b] d IH]; simpl; [intros [E|[]]; auto|].
    destruct (string_dec k a) as [<-|]; simpl; [intros [E|E]; auto|]. intros [E|E]; [auto|]. apply IH in E. tauto. }
  destruct E as [E|E]; [|exact (H k' l E)]. inversion E; subst. destruct (dget string_dec k d) as [l0|] eqn:G.
  - split; [destruct l0; discriminate|]. intros w Hw. apply in_app_or in Hw. destruct Hw as [Hw|[<-|[]]]; [|exact Hv].
    apply (dget_some_in string_dec) in G. exact (proj2 (H k l0 G) w Hw).
  - split; [discriminate|]. intros w [<-|[]]. exact Hv.
Qed.
Lemma okval_collect r rs : okres rs -> okmsg (MDict r) -> okres (collect rs r).
Proof.
  unfold collect, okmsg. generalize (flat_map entry_keys r) as l. intros l. revert rs.
  induction l as [|[k v] l IH]; intros rs H Hl; simpl; [exact H|]. apply IH.
  - apply okval_dappend; [exact H|]. apply Hl. left; reflexivity.
  - intros k' v' Hi. apply Hl. right; exact Hi.
Qed.
Lemma okres_combine rs : okres rs -> exists b, combine_results rs = Some b /\ okbatch b /\ Permutation (rrows rs) (brows b).
Proof.
  induction rs as [|[k l] rs IH]; intros H; [exists []; split; [reflexivity|]; split; [intros k o []|reflexivity]|].
  destruct IH as (b & E & Ob & P); [intros k' l' Hi; apply H; right; exact Hi|].
  destruct (H k l (or_introl eq_refl)) as [Hn Hv]. cbn [combine_results]. rewrite E.
  assert (F : kind k = true -> exists rows, concat_rows l = Some rows).
  { clear - Hv. intros Hk. induction l as [|v l IH]; [exists []; reflexivity|].
    assert (V := Hv v (or_introl eq_refl)). destruct v as [rows|x|]; simpl in V; [|congruence|tauto].
    destruct IH as [q Q]; [intros w Hw; apply Hv; right; exact Hw|]. simpl. rewrite Q. eexists; reflexivity. }
  assert (S : kind k = false -> exists rows, series_rows l = Some rows).
  { clear - Hv. intros Hk. induction l as [|v l IH]; [exists []; reflexivity|].
    assert (V := Hv v (or_introl eq_refl)). destruct v as [rows|x|]; simpl in V; [congruence| |tauto].
    destruct IH as [q Q]; [intros w Hw; apply Hv; right; exact Hw|]. simpl. rewrite Q. eexists; reflexivity. }
  destruct l as [|v l]; [congruence|]. assert (V := Hv v (or_introl eq_refl)).
  unfold rrows. cbn [flat_map]. rewrite crows_map. fold (rrows rs).
  destruct v as [rows|x|]; simpl in V; [| |tauto].
  - destruct (F V) as [q Q]. rewrite Q. eexists. split; [reflexivity|]. split.
    + intros k' o [Hi|Hi]; [inversion Hi; discriminate|exact (Ob k' o Hi)].
    + rewrite (concat_rows_value _ _ Q), P. reflexivity.
  - destruct (S V) as [q Q]. rewrite Q. eexists. split; [reflexivity|]. split.
    + intros k' o [Hi|Hi]; [inversion Hi; discriminate|exact (Ob k' o Hi)].
    + rewrite (series_rows_value _ _ Q), P. reflexivity.
Qed.
Lemma okmsg_task j m : In j jobs -> In m (worker_put (what p j)) -> okmsg m.
Proof.
  intros Hj Hm. assert (G := GT j Hj). destruct (what p j) as [| |[|r|]]; simpl in *; try tauto.
  - destruct Hm as [<-|[]]. exact I.
  - destruct Hm as [<-|[]]. exact I.
  - destruct Hm as [<-|[]]. destruct G as [N U]. cbn. intros k v Hi. rewrite (entry_keys_layers kind r N U) in Hi.
    exact (proj2 U k v Hi).
Qed.

Definition plain (e : event) : Prop := e <> Signal /\ forall w, e <> SFail w.

Lemma good_noloss e s s' : Good s -> plain e -> step p e s = Some s' -> noloss p e s.
Proof.
  intros G [Hs Hf] H. destruct e; cbn [noloss]; try exact I.
  - destruct (nth_error (combs s) c) as [x|] eqn:E; [|exact I]. assert (O := g_combs s G x (nth_in _ _ _ E)).
    destruct O as (_ & _ & O). destruct (c_pc x) as [| | |m| |]; try exact I; [exact O|]. destruct m; try exact I. exact O.
  - destruct (nth_error (combs s) c) as [x|] eqn:E; [|exact I]. destruct (nth_error (c_thr x) i) as [rs|] eqn:Et; [|exact I].
    assert (O := g_combs s G x (nth_in _ _ _ E)). destruct O as (_ & O & _). specialize (O rs (nth_in _ _ _ Et)).
    destruct (okres_combine rs O) as (b & Q1 & _ & Q2). exists b. auto.
  - destruct (nth_error (writers s) w) as [x|] eqn:E; [|exact I]. assert (O := g_writers s G x (nth_in _ _ _ E)).
    destruct x as [| | | |b|[|[k [rows|]] b]|]; try exact I. simpl in O. apply (O k None); [left; reflexivity|reflexivity].
  - apply (Hf w). reflexivity.
Qed.

Lemma good_comb s c x y : Good s -> nth_error (combs s) c = Some x -> okcomb y ->
  (cleaving y -> main s <> PRun /\ queue s = []) -> (cdone x -> cdone y) -> Good (set_comb c y s).
Proof.
  intros G E O L D. destruct G. constructor; cbn; try assumption.
  - intros z Hz. apply upd_in in Hz. destruct Hz as [->|Hz]; auto.
  - intros z Hz Hl. apply upd_in in Hz. destruct Hz as [->|Hz]; [auto|]. exact (g_leave0 z Hz Hl).
  - intros M z Hz. apply upd_in in Hz. destruct Hz as [->|Hz]; [apply D, g_joinw0; [exact M|eapply nth_in, E]|auto].
  - rewrite upd_length. exact g_nc0.
Qed.
Lemma good_writer s w x y : Good s -> nth_error (writers s) w = Some x -> okwriter y ->
  (y = WDone -> (main s = PJoinW \/ main s = PEnd) /\ outq s = []) -> x <> WDone -> Good (set_writer w y s).
Proof.
  intros G E O L N. destruct G. constructor; cbn; try assumption.
  - intros z Hz. apply upd_in in Hz. destruct Hz as [->|Hz]; auto.
  - intros z Hz Hl. apply upd_in in Hz. destruct Hz as [->|Hz]; [auto|]. exact (g_wdone0 z Hz Hl).
  - intros M z Hz. exfalso. apply N, g_end0; [exact M|eapply nth_in, E].
  - rewrite upd_length. exact g_nw0.
Qed.
Lemma good_queue_tail s m q : Good s -> queue s = m :: q -> Good (set_queue q s).
Proof.
  intros G E. destruct G. constructor; cbn; try assumption.
  - intros z Hz. apply g_queue0. rewrite E. right. exact Hz.
  - intros z Hz Hl. destruct (g_leave0 z Hz Hl) as [A B]. congruence.
Qed.
Lemma good_cnt b s : Good s -> Good (increase_cnt b s).
Proof. intros G. destruct G. constructor; cbn; assumption. Qed.
Lemma good_outq_tail s b q : Good s -> outq s = b :: q -> Good (set_outq q s).
Proof.
  intros G E. destruct G. constructor; cbn; try assumption.
  - intros z Hz. apply g_outq0. rewrite E. right. exact Hz.
  - intros z Hz Hl. destruct (g_wdone0 z Hz Hl) as [A B]. congruence.
Qed.
Lemma good_store rows s : Good s -> Good (add_store rows s).
Proof. intros G. destruct G. constructor; cbn; assumption. Qed.
Lemma good_wait b s : Good s -> Good (set_flags b (should_stop s) (stop_ s) (ready s) s).
Proof. intros G. destruct G. constructor; cbn; assumption. Qed.
Lemma good_outq_add s b : Good s -> okbatch b -> main s = PRun \/ main s = PJoinC -> Good (set_outq (outq s ++ [b]) s).
Proof.
  intros G O M. destruct G. constructor; cbn; try assumption.
  - intros z Hz. apply in_app_or in Hz. destruct Hz as [Hz|[<-|[]]]; auto.
  - intros z Hz Hl. destruct (g_wdone0 z Hz Hl) as [[A|A] _]; exfalso; destruct M; congruence.
Qed.
Lemma good_flush s c x : Good s -> nth_error (combs s) c = Some x -> c_pc x = CGet -> Good (set_comb c (flush x) s).
Proof.
  intros G E Epc. assert (O := g_combs s G x (nth_in _ _ _ E)). destruct O as (O1 & O2 & _).
  apply (good_comb s c x); [exact G|exact E| | |].
  - unfold flush. split; [intros k l []|]. split; [|reflexivity]. cbn. intros rs Hr. destruct (isnil (c_res x)); [auto|].
    apply in_app_or in Hr. destruct Hr as [Hr|[<-|[]]]; auto.
  - intros [L|L]; discriminate.
  - intros D. unfold cdone in D. congruence.
Qed.

Lemma good_step e s s' : Good s -> plain e -> step p e s = Some s' -> Good s'.
Proof.
  intros G P H. assert (NL := good_noloss e s s' G P H). destruct P as [Ps Pf].
  destruct e; cbn [step] in H; cbn [noloss] in NL.
  - (* WStart *)
    destruct (nth_error (todo s) i) as [j|] eqn:E; [|discriminate].
    destruct (should_wait s && Nat.ltb (List.length (running s)) (n_worker p)); [|discriminate]. inversion H; subst.
    assert (Hj := nth_in _ _ _ E). destruct G. constructor; cbn; try assumption.
    + intros k Hk. apply g_todo0. rewrite !in_app_iff in *. destruct Hk as [Hk|[Hk|[<-|[]]]]; auto. left. eapply del_in, Hk.
    + intros M. destruct (g_main0 M) as [A _]. rewrite A in Hj. destruct Hj.
  - (* WFinish *)
    destruct (nth_error (running s) i) as [j|] eqn:E; [|discriminate]. inversion H; subst.
    assert (Hj := nth_in _ _ _ E).
    assert (M : main s = PRun).
    { destruct (main s) eqn:M; [reflexivity| | |]; exfalso; destruct (g_main s G) as [_ A]; try congruence; rewrite A in Hj; destruct Hj. }
    destruct G. constructor; cbn; try assumption.
    + intros k Hk. apply g_todo0. rewrite !in_app_iff in *. destruct Hk as [Hk|Hk]; auto. right. eapply del_in, Hk.
    + intros m Hm. apply in_app_or in Hm. destruct Hm as [Hm|Hm]; [auto|]. apply (okmsg_task j); [|exact Hm].
      apply g_todo0, in_or_app. right; exact Hj.
    + intros Z. congruence.
    + intros z Hz Hl. destruct (g_leave0 z Hz Hl). congruence.
  - (* CStep *)
    destruct (nth_error (combs s) c) as [x|] eqn:E; [|discriminate]. unfold comb_step in H.
    assert (O := g_combs s G x (nth_in _ _ _ E)). destruct O as (O1 & O2 & O3).
    destruct (c_pc x) as [| | |m| |] eqn:Epc.
    + destruct (should_stop s && isnil (queue s)) eqn:B; inversion H; subst; clear H; apply (good_comb s c x); try assumption.
      * split; [exact O1|]. split; [exact O2|exact O3].
      * intros _. apply andb_prop in B. destruct B as [B1 B2]. split; [exact (g_sstop s G B1)|]. destruct (queue s); [reflexivity|discriminate].
      * intros D. unfold cdone in D. congruence.
      * split; [exact O1|]. split; [exact O2|exact O3].
      * intros [L|L]; discriminate.
      * intros D. unfold cdone in D. congruence.
    + destruct (stop_ s) eqn:B; inversion H; subst; clear H; apply (good_comb s c x); try assumption.
      * split; [exact O1|]. split; [exact O2|exact O3].
      * intros _. assert (M := g_stop s G B). assert (Z := g_joinw s G (or_intror M) x (nth_in _ _ _ E)). unfold cdone in Z. congruence.
      * intros D. unfold cdone in D. congruence.
      * split; [intros k l []|]. split; [exact O2|exact I].
      * intros [L|L]; discriminate.
      * intros D. unfold cdone in D. congruence.
    + destruct (Nat.ltb (c_n x) (chunk p)).
      * destruct (queue s) as [|m q] eqn:Eq; [discriminate|]. inversion H; subst; clear H.
        apply (good_comb (set_queue q s) c x); try assumption.
        -- eapply good_queue_tail; eassumption.
        -- split; [exact O1|]. split; [exact O2|]. cbn. apply (g_queue s G). rewrite Eq. left; reflexivity.
        -- intros [L|L]; discriminate.
        -- intros D. unfold cdone in D. congruence.
      * inversion H; subst. apply good_flush; assumption.
    + destruct m as [|r|]; inversion H; subst; clear H; [| |destruct NL].
      * apply (good_comb (increase_cnt true s) c x); try assumption.
        -- apply good_cnt, G.
        -- split; [exact O1|]. split; [exact O2|exact I].
        -- intros [L|L]; discriminate.
        -- intros D. unfold cdone in D. congruence.
      * apply (good_comb (increase_cnt false s) c x); try assumption.
        -- apply good_cnt, G.
        -- split; [apply okval_collect; [exact O1|exact O3]|]. split; [exact O2|exact I].
        -- intros [L|L]; discriminate.
        -- intros D. unfold cdone in D. congruence.
    + destruct (c_thr x) as [|t l] eqn:Et; [|discriminate]. inversion H; subst; clear H. apply (good_comb s c x); try assumption.
      * split; [exact O1|]. split; [intros rs []|]. split; [exact O3|reflexivity].
      * intros _. apply (g_leave s G x (nth_in _ _ _ E)). left. exact Epc.
      * intros _. reflexivity.
    + discriminate.
  - (* CTimeout *)
    destruct (nth_error (combs s) c) as [x|] eqn:E; [|discriminate]. destruct (c_pc x) eqn:Epc; try discriminate.
    destruct (Nat.ltb (c_n x) (chunk p)); [|discriminate]. inversion H; subst. apply good_flush; assumption.
  - (* CThread *)
    destruct (nth_error (combs s) c) as [x|] eqn:E; [|discriminate]. destruct (nth_error (c_thr x) i) as [rs|] eqn:Et; [|discriminate].
    assert (O := g_combs s G x (nth_in _ _ _ E)). destruct O as (O1 & O2 & O3).
    assert (Hr := nth_in _ _ _ Et). destruct (okres_combine rs (O2 rs Hr)) as (b & Eb & Ob & _). rewrite Eb in H. inversion H; subst; clear H.
    assert (M : ~ cdone x). { intros D. unfold cdone in D. rewrite D in O3. destruct O3 as [_ O3]. rewrite O3 in Hr. destruct Hr. }
    match goal with |- context [set_comb c ?z s] => set (y := z) in *; assert (GY : Good (set_comb c y s)) end.
    { apply (good_comb s c x); try assumption.
      - split; [exact O1|]. split; [intros q Hq; apply O2; eapply del_in, Hq|]. cbn. destruct (c_pc x) eqn:Epc; try exact O3.
        destruct O3 as [A B]. rewrite B in Hr. destruct Hr.
      - intros L. apply (g_leave s G x (nth_in _ _ _ E)). exact L.
      - intros D. contradiction. }
    apply (good_outq_add (set_comb c y s) b GY Ob). cbn. destruct (main s) eqn:Em; auto; exfalso; apply M;
      apply (g_joinw s G); auto; eapply nth_in, E.
  - (* SStep *)
    destruct (nth_error (writers s) w) as [x|] eqn:E; [|discriminate]. unfold writer_step in H.
    assert (O := g_writers s G x (nth_in _ _ _ E)). 
    destruct x as [| | | |b|[|[k [rows|]] b]|].
    + destruct (ready s && isnil (outq s)) eqn:B; inversion H; subst; clear H; apply (good_writer s w WTop); try assumption; try exact I; try discriminate.
      intros _. apply andb_prop in B. destruct B as [B1 B2]. split; [exact (g_ready s G B1)|]. destruct (outq s); [reflexivity|discriminate].
    + destruct (stop_ s) eqn:B; inversion H; subst; clear H; apply (good_writer s w WTest); try assumption; try exact I; try discriminate.
      intros _. assert (M := g_stop s G B). assert (Z := g_end s G M _ (nth_in _ _ _ E)). discriminate.
    + inversion H; subst; clear H. 
      apply (good_writer (set_flags (Nat.ltb (List.length (outq s)) (cache p)) (should_stop s) (stop_ s) (ready s) s) w WGate); try assumption; try exact I; try discriminate.
      apply good_wait, G.
    + destruct (outq s) as [|b q] eqn:Eq; [discriminate|]. inversion H; subst; clear H.
      apply (good_writer (set_outq q s) w WGet); try assumption; try discriminate.
      * eapply good_outq_tail; eassumption.
      * apply (g_outq s G). rewrite Eq. left; reflexivity.
    + destruct (locked s); [discriminate|]. inversion H; subst; clear H.
      apply (good_writer s w (WHave b)); try assumption; try discriminate.
    + inversion H; subst; clear H. apply (good_writer s w (WWriting [])); try assumption; try exact I; try discriminate.
    + inversion H; subst; clear H. apply (good_writer (add_store (map (pair k) rows) s) w (WWriting ((k, Some rows) :: b))); try assumption; try discriminate.
      * apply good_store, G.
      * intros k' o Hi. apply (O k' o). right. exact Hi.
    + destruct NL.
    + discriminate.
  - (* STimeout *)
    destruct (nth_error (writers s) w) as [x|] eqn:E; [|discriminate]. destruct x; try discriminate. inversion H; subst; clear H.
    apply (good_writer s w WGet); try assumption; try exact I; try discriminate.
  - destruct NL.
  - (* Main *)
    destruct (main s) eqn:Em.
    + destruct (isnil (todo s) && isnil (running s)) eqn:B; inversion H; subst; clear H.
      apply andb_prop in B. destruct B as [B1 B2].
      assert (T : todo s = []) by (destruct (todo s); [reflexivity|discriminate]).
      assert (R : running s = []) by (destruct (running s); [reflexivity|discriminate]).
      destruct G. constructor; cbn; try assumption; try (intros; congruence).
      * intros S. rewrite (g_stop0 S) in Em. discriminate.
      * intros _. auto.
      * intros z Hz Hl. destruct (g_leave0 z Hz Hl). congruence.
      * intros S. destruct (g_ready0 S); congruence.
      * intros [M|M]; discriminate.
      * intros z Hz Hl. destruct (g_wdone0 z Hz Hl) as [[A|A] _]; congruence.
    + destruct (forallb _ (combs s)) eqn:B; inversion H; subst; clear H. rewrite forallb_forall in B.
      destruct G. constructor; cbn; try assumption; try (intros; congruence).
      * intros S. rewrite (g_stop0 S) in Em. discriminate.
      * intros _. apply g_main0. congruence.
      * intros z Hz Hl. destruct (g_leave0 z Hz Hl). split; [discriminate|assumption].
      * auto.
      * intros _ z Hz. specialize (B z Hz). unfold cdone. destruct (c_pc z); congruence.
      * intros z Hz Hl. destruct (g_wdone0 z Hz Hl) as [[A|A] _]; congruence.
    + destruct (forallb _ (writers s)) eqn:B; inversion H; subst; clear H. rewrite forallb_forall in B.
      destruct G. constructor; cbn; try assumption; try (intros; congruence).
      * intros _. apply g_main0. congruence.
      * intros z Hz Hl. destruct (g_leave0 z Hz Hl). split; [discriminate|assumption].
      * auto.
      * intros _. apply g_joinw0. auto.
      * intros z Hz Hl. destruct (g_wdone0 z Hz Hl) as [_ A]. auto.
      * intros _ z Hz. specialize (B z Hz). destruct z; congruence.
    + discriminate.
  - congruence.
Qed.

Lemma good_init : Good (init p jobs).
Proof.
  constructor; cbn; try (intros; congruence); try tauto.
  - intros j Hj. rewrite app_nil_r in Hj. exact Hj.
  - intros x Hx. apply repeat_spec in Hx. subst. split; [intros k l []|]. split; [intros rs []|reflexivity].
  - intros w Hw. apply repeat_spec in Hw. subst. exact I.
  - intros x Hx [L|L]; apply repeat_spec in Hx; subst; discriminate.
  - intros [M|M]; discriminate.
  - intros w Hw ->. apply repeat_spec in Hw. discriminate.
  - apply repeat_length.
  - apply repeat_length.
Qed.

Lemma plain_cons e es : undisturbed (e :: es) -> plain e /\ undisturbed es.
Proof.
  intros [A B]. split; split.
  - intros ->. apply A. left; reflexivity.
  - intros w ->. apply (B w). left; reflexivity.
  - intros Z. apply A. right; exact Z.
  - intros w Z. apply (B w). right; exact Z.
Qed.
Lemma good_run es : forall s s', Good s -> undisturbed es -> run p es s = Some s' ->
  Good s' /\ Permutation (allrows p s) (allrows p s').
Proof.
  induction es as [|e es IH]; intros s s' G U H; cbn [run] in H; [inversion H; subst; split; [exact G|reflexivity]|].
  destruct (plain_cons _ _ U) as [P U']. destruct (step p e s) as [s1|] eqn:E; [|discriminate].
  assert (G1 := good_step e s s1 G P E). destruct (step_rows p e s s1 E) as (lost & R & Z).
  rewrite (Z (good_noloss e s s1 G P E)), app_nil_r in R. destruct (IH s1 s' G1 U' H) as [G' R']. split; [exact G'|].
  rewrite R, R'. reflexivity.
Qed.

Lemma jrows_good j : In j jobs -> jrows p j = job_rows p j.
Proof.
  intros Hj. assert (T := GT j Hj). unfold jrows, job_rows. destruct (what p j) as [| |[|r|]]; try reflexivity.
  cbn in T. destruct T as [N U]. cbn [worker_put flat_map mrows]. rewrite app_nil_r, (entry_keys_layers kind r N U). reflexivity.
Qed.

Lemma good_end_rows s : 1 <= n_combiner p -> 1 <= n_writer p -> Good s -> main s = PEnd -> allrows p s = store s.
Proof.
  intros Nc Nw G M. unfold allrows. assert (M' : main s <> PRun) by congruence.
  destruct (g_main s G M') as [-> ->]. cbn [flat_map app].
  assert (C : forall x, In x (combs s) -> cdone x) by (apply (g_joinw s G); auto).
  assert (W : forall w, In w (writers s) -> w = WDone) by (apply (g_end s G); auto).
  assert (Q : queue s = []).
  { assert (L := g_nc s G). destruct (combs s) as [|x l] eqn:E; [cbn in L; lia|].
    apply (g_leave s G x); [rewrite E; left; reflexivity|]. right. apply C. left; reflexivity. }
  assert (Z : outq s = []).
  { assert (L := g_nw s G). destruct (writers s) as [|x l] eqn:E; [cbn in L; lia|].
    apply (g_wdone s G x); [rewrite E; left; reflexivity|]. apply W. left; reflexivity. }
  rewrite Q, Z. cbn [flat_map app].
  assert (X : flat_map xrows (combs s) = []).
  { assert (OC := g_combs s G). induction (combs s) as [|x l IH]; [reflexivity|]. cbn [flat_map].
    rewrite IH; [|intros; apply C; right; assumption|intros; apply OC; right; assumption].
    destruct (OC x (or_introl eq_refl)) as (_ & _ & O). specialize (C x (or_introl eq_refl)). unfold cdone in C. unfold xrows.
    rewrite C in *. destruct O as [-> ->]. reflexivity. }
  assert (Y : flat_map wrows (writers s) = []).
  { induction (writers s) as [|x l IH]; [reflexivity|]. cbn [flat_map]. rewrite IH; [|intros; apply W; right; assumption].
    rewrite (W x (or_introl eq_refl)). reflexivity. }
  rewrite X, Y. reflexivity.
Qed.
End Good.
End P.
