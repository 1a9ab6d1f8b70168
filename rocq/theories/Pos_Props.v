(** C163: the interaction term uses every parameter's own value. *)
From Coq Require Import Arith Bool ZArith String List Lia.
From Verif Require Import Base Base_Proofs Ini_Model Par_Model Par_Spec Par_Proofs Pos_Model Pos_Spec Mf_Model.
Import ListNotations.
Local Open Scope string_scope.
Local Open Scope list_scope.

Lemma keys_dset_new : forall {V} k (v : V) d, ~ In k (keys d) -> dset string_dec k v d = d ++ [(k, v)].
Proof.
  intros V k v. induction d as [|[q w] d IH]; intros N; [reflexivity|]. cbn [dset]. destruct (string_dec k q) as [->|Q].
  - exfalso. apply N. left. reflexivity.
  - rewrite IH; [reflexivity|]. intros X. apply N. right. exact X.
Qed.
Lemma dupdate_disjoint : forall {V} (e d : list (string * V)), NoDup (keys e) -> (forall k, In k (keys e) -> ~ In k (keys d)) ->
  dupdate string_dec d e = d ++ e.
Proof.
  intros V. unfold dupdate. induction e as [|[k v] e IH]; intros d N D; cbn [fold_left]; [symmetry; apply app_nil_r|].
  cbn [fst snd]. rewrite keys_dset_new by (apply D; left; reflexivity).
  inversion N as [|x l A B]; subst. rewrite IH.
  - rewrite <- app_assoc. reflexivity.
  - exact B.
  - intros q X Y. unfold keys in Y. rewrite map_app in Y. apply in_app_or in Y as [Y|[Y|[]]].
    + apply (D q); [right; exact X|exact Y].
    + cbn in Y. subst q. contradiction.
Qed.
Lemma minus_minus : forall a b c, minus (minus a b) c = filter (fun x => negb (inb string_dec x (b ++ c))) a.
Proof.
  intros a b c. unfold minus. induction a as [|x a IH]; [reflexivity|]. cbn [filter].
  destruct (inb string_dec x b) eqn:E; cbn [negb].
  - rewrite IH. assert (inb string_dec x (b ++ c) = true) as ->; [|reflexivity]. apply inb_iff. apply inb_iff in E. apply in_or_app. auto.
  - cbn [filter]. rewrite IH. apply inb_false in E. destruct (inb string_dec x c) eqn:E2; cbn [negb].
    + assert (inb string_dec x (b ++ c) = true) as ->; [|reflexivity]. apply inb_iff. apply inb_iff in E2. apply in_or_app. auto.
    + assert (inb string_dec x (b ++ c) = false) as ->; [|reflexivity]. apply inb_false. apply inb_false in E2. rewrite in_app_iff. tauto.
Qed.
Lemma keys_filter : forall {V} (f : string -> bool) (d : list (string * V)), keys (filter (fun kv => f (fst kv)) d) = filter f (keys d).
Proof. intros V f d. unfold keys. induction d as [|[k v] d IH]; [reflexivity|]. cbn. destruct (f k); cbn; rewrite IH; reflexivity. Qed.
Lemma combine_keys : forall {V} (d : list (string * V)), combine (keys d) (map snd d) = d.
Proof. intros V d. induction d as [|[k v] d IH]; [reflexivity|]. cbn. f_equal. exact IH. Qed.
Lemma nodup_start : forall d, NoDup (keys d) -> NoDup (start_names d).
Proof.
  induction d as [|[k e] d IH]; intros N; [constructor|]. inversion N as [|x l A B]; subst. cbn [start_names flat_map fst snd].
  destruct e; cbn; try (apply IH; exact B). constructor; [|apply IH; exact B].
  intros X. apply A. change (In k (start_names d)) in X. apply in_start in X. change (In k (keys d)). unfold keys. apply in_map_iff. exists (k, Fitted). auto.
Qed.
Lemma nodup_fixed : forall frame cols d l, NoDup (keys d) -> fixed_names frame cols d = Ok l -> NoDup l /\ forall k, In k l -> In (k, Auxiliary) d.
Proof.
  intros frame cols. induction d as [|[k e] d IH]; intros l N H; cbn [fixed_names] in H.
  - injection H as <-. split; [constructor|intros ? []].
  - inversion N as [|x y A B]; subst. destruct e.
    + destruct (IH l B H) as [X Y]. split; [exact X|]. intros q Q. right. auto.
    + destruct (IH l B H) as [X Y]. split; [exact X|]. intros q' Q. right. auto.
    + destruct frame.
      * destruct (inb string_dec k cols); [|discriminate]. destruct (fixed_names true cols d) as [r|er]; cbn [bind] in H; [|discriminate].
        injection H as <-. destruct (IH r B eq_refl) as [X Y]. split.
        -- constructor; [|exact X]. intros Z. apply A. apply Y in Z. change (In k (keys d)). unfold keys. apply in_map_iff. exists (k, Auxiliary). auto.
        -- intros q [<-|Q]; [left; reflexivity|right; auto].
      * destruct (IH l B H) as [X Y]. split; [exact X|]. intros q Q. right. auto.
    + destruct (IH l B H) as [X Y]. split; [exact X|]. intros q Q. right. auto.
Qed.

Section V.
Context {Val : Type}.
Implicit Types (m : model Val) (r fixed : list (string * Val)).

Definition kept m (s : string) : bool := negb (inb string_dec s (excludesymbs Val m)).
Lemma kept_iff m s : kept m s = true <-> routed m s.
Proof.
  unfold kept. rewrite negb_true_iff, inb_false, in_excluded. split; [|tauto].
  intros H. destruct (routed_dec m s) as [R|R]; [exact R|contradiction].
Qed.
Lemma names_eq m frame cols d names : param_R_names Val m frame cols d = Ok names ->
  exists l, fixed_names frame cols d = Ok l /\ names = filter (kept m) (start_names d ++ l).
Proof.
  unfold param_R_names. destruct (fixed_names frame cols d) as [l|e]; cbn [bind]; [|discriminate].
  destruct (forallb _ _); [|discriminate]. intros H. injection H as <-. exists l. split; [reflexivity|]. apply minus_minus.
Qed.
Lemma params_eq m old r fixed v : set_calc_values Val m old r fixed = Ok v ->
  v_param v = filter (fun kv => kept m (fst kv)) (dupdate string_dec r fixed).
Proof.
  unfold set_calc_values. destruct (new_value _ _ _ (m_omega m) _); cbn [bind]; [|discriminate].
  destruct (new_value _ _ _ (m_tau m) _); cbn [bind]; [|discriminate]. destruct (new_value _ _ _ (m_N m) _); cbn [bind]; [|discriminate].
  intros H. injection H as <-. reflexivity.
Qed.
Lemma disjoint frame d r fixed : NoDup (keys d) -> fit_dicts frame d r fixed -> dupdate string_dec r fixed = r ++ fixed.
Proof.
  intros N (NR & NF & R & F). apply dupdate_disjoint; [exact NF|]. intros k X Y. apply F in X as [_ X]. apply R in Y.
  pose proof (unique_entry d k _ _ N X Y). discriminate.
Qed.
End V.

(** the names of the parameters in the order in which they are given *)
Definition given_order {Val} (m : model Val) (r fixed : list (string * Val)) : list string := filter (kept m) (keys r ++ keys fixed).

(** If the dicts list the parameters in the order of the definitions, the interaction term uses every parameter's own
    value. *)
Theorem C163_same_order : forall Val (m : model Val) frame cols d old r fixed names env,
  NoDup (keys d) -> fit_dicts frame d r fixed -> param_R_names Val m frame cols d = Ok names ->
  interaction_values Val m frame cols d old r fixed = Ok env ->
  given_order m r fixed = names -> own_values m frame d r fixed env.
Proof.
  intros Val m frame cols d old r fixed names env N FD E H G s P R.
  split; [apply (fit_given frame d r fixed s FD), P|].
  unfold interaction_values in H. rewrite E in H. cbn [bind] in H.
  destruct (set_calc_values Val m old r fixed) as [v|e] eqn:S; cbn [bind] in H; [|discriminate].
  apply params_eq in S. unfold call_args in H. destruct (Nat.eqb _ _); [|discriminate]. injection H as <-.
  assert (K : keys (v_param v) = names).
  { rewrite S, keys_filter, (disjoint frame d r fixed N FD). unfold keys. rewrite map_app. exact G. }
  rewrite <- K, combine_keys, S. rewrite (dget_filter_keys (kept m)).
  apply (proj2 (kept_iff m s)) in R. rewrite R. apply given_update. apply FD.
Qed.
Print Assumptions C163_same_order.

(** If all values are different, it does so only then. *)
Theorem C163_other_order_refuted : forall Val (m : model Val) frame cols d old r fixed names env,
  NoDup (keys d) -> fit_dicts frame d r fixed -> param_R_names Val m frame cols d = Ok names ->
  interaction_values Val m frame cols d old r fixed = Ok env ->
  NoDup (map snd (r ++ fixed)) -> given_order m r fixed <> names ->
  exists s v, provided frame d s /\ routed m s /\ dget string_dec s env = Some v /\ given r fixed s <> Some v.
Proof.
  intros Val m frame cols d old r fixed names env N FD E H D G.
  unfold interaction_values in H. rewrite E in H. cbn [bind] in H.
  destruct (set_calc_values Val m old r fixed) as [v|e] eqn:S; cbn [bind] in H; [|discriminate].
  apply params_eq in S. unfold call_args in H. destruct (Nat.eqb _ _) eqn:L; [|discriminate]. injection H as <-.
  apply Nat.eqb_eq in L. rewrite (disjoint frame d r fixed N FD) in S.
  assert (K : keys (v_param v) = given_order m r fixed).
  { rewrite S, keys_filter. unfold keys. rewrite map_app. reflexivity. }
  assert (NK : NoDup (keys (r ++ fixed))).
  { rewrite <- (disjoint frame d r fixed N FD). pose proof FD as (NR & NF & _ & _).
    unfold dupdate. revert NR. generalize r. generalize fixed. induction fixed0 as [|[k w] f IH]; intros r0 NR; [exact NR|].
    cbn [fold_left]. apply IH. apply NoDup_keys_dset. exact NR. }
  assert (NN : NoDup names).
  { destruct (names_eq m frame cols d names E) as (l & EL & ->). apply NoDup_filter.
    destruct (nodup_fixed frame cols d l N EL) as [NL IL].
    assert (NS : NoDup (start_names d)) by (apply nodup_start, N).
    assert (DJ : forall k, In k (start_names d) -> ~ In k l).
    { intros k X Y. apply in_start in X. apply IL in Y. pose proof (unique_entry d k _ _ N X Y). discriminate. }
    clear - NL NS DJ. induction (start_names d) as [|a s IH]; [exact NL|]. inversion NS; subst. cbn. constructor.
    - rewrite in_app_iff. intros [X|X]; [contradiction|]. apply (DJ a); [left; reflexivity|exact X].
    - apply IH; [assumption|]. intros k X. apply DJ. right. exact X. }
  assert (MEM : forall s, In s names -> provided frame d s /\ routed m s) by (intros s X; apply (param_R_names_spec m frame cols d names E); exact X).
  assert (GIV : forall s, given r fixed s = dget string_dec s (r ++ fixed)).
  { intros s. rewrite <- (disjoint frame d r fixed N FD). symmetry. apply given_update. apply FD. }
  (* the first place where the orders differ *)
  assert (SUB : forall p, In p (v_param v) -> In p (r ++ fixed)) by (intros p X; rewrite S in X; apply filter_In in X; apply X).
  assert (Q : exists i k k' w, nth_error names i = Some k /\ nth_error (v_param v) i = Some (k', w) /\ k <> k').
  { rewrite <- K in G. clear - G L. revert L G. generalize (v_param v). induction names as [|k n IH]; intros [|[k' w] l] L G; cbn in L; try discriminate.
    - exfalso. apply G. reflexivity.
    - destruct (string_dec k k') as [->|X].
      + destruct (IH l) as (i & a & b & c & A & B & C); [lia|intros Y; apply G; cbn; f_equal; exact Y|]. exists (S i), a, b, c. auto.
      + exists 0, k, k', w. auto. }
  destruct Q as (i & k & k' & w & A & B & C).
  assert (I : In k names) by (apply nth_error_In with i; exact A). destruct (MEM k I) as [P R].
  exists k, w. split; [exact P|]. split; [exact R|]. split.
  - apply dget_in_nodup.
    + unfold keys. assert (map fst (combine names (map snd (v_param v))) = names) as ->; [|exact NN].
      assert (LL : List.length names = List.length (map snd (v_param v))) by (rewrite map_length; exact L).
      clear - LL. revert LL. generalize (map snd (v_param v)). induction names as [|x n IH]; intros [|y l] LL; cbn in *; try discriminate; [reflexivity|]. f_equal. apply IH. lia.
    + apply nth_error_In with i. assert (B' : nth_error (map snd (v_param v)) i = Some w) by (rewrite nth_error_map, B; reflexivity).
      clear - A B'. revert i A B'. generalize (map snd (v_param v)). induction names as [|x n IH]; intros l [|i] A B'; cbn in *; try discriminate.
      * destruct l; [discriminate|]. cbn in B'. injection A as ->. injection B' as ->. reflexivity.
      * destruct l; [discriminate|]. cbn in B'. apply IH; assumption.
  - rewrite GIV. intros X. apply dget_some_in in X. apply C.
    assert (Y : In (k', w) (r ++ fixed)) by (apply SUB, nth_error_In with i, B).
    clear - D X Y. induction (r ++ fixed) as [|[a b] l IH]; [destruct X|]. cbn in D. inversion D as [|? ? D1 D2]; subst.
    assert (Z : forall q, In (q, w) l -> In w (map snd l)) by (intros q W; apply in_map_iff; exists (q, w); auto).
    destruct X as [X|X], Y as [Y|Y].
    + congruence.
    + injection X as -> ->. exfalso. apply D1, (Z k'), Y.
    + injection Y as -> ->. exfalso. apply D1, (Z k), X.
    + apply IH; assumption.
Qed.
Print Assumptions C163_other_order_refuted.

(** During a fit and for its result the order is right: for every vector of parameters each name has its own value. *)
Theorem C163_fit : forall Val (m : model Val) frame cols d old vals aux fixed env,
  NoDup (keys d) -> List.length vals = List.length (start_names d) ->
  aux_dict Val frame cols d aux = Ok fixed ->
  interaction_values Val m frame cols d old (fit_dict Val d vals) fixed = Ok env ->
  own_values m frame d (fit_dict Val d vals) fixed env.
Proof.
  intros Val m frame cols d old vals aux fixed env N L A H.
  unfold aux_dict in A. destruct (fixed_names frame cols d) as [l|e] eqn:EL; cbn [bind] in A; [|discriminate]. injection A as <-.
  set (fixed := map (fun k => (k, aux k)) l) in *.
  assert (KF : keys fixed = l). { unfold fixed, keys. rewrite map_map. cbn. apply map_id. }
  assert (KR : keys (fit_dict Val d vals) = start_names d).
  { unfold fit_dict, keys. clear - L. revert vals L. induction (start_names d) as [|a s IH]; intros [|b v] L; cbn in *; try discriminate; [reflexivity|]. f_equal. apply IH. lia. }
  destruct (nodup_fixed frame cols d l N EL) as [NL _].
  assert (C : columns_there frame cols d).
  { intros F s Hs. destruct (in_dec string_dec s cols) as [I|I]; [exact I|]. rewrite fixed_err in EL; [discriminate|]. intro X. apply I, (X F s Hs). }
  destruct (fixed_spec frame cols d C) as [l' [E' LL]]. rewrite EL in E'. injection E' as <-.
  assert (FD : fit_dicts frame d (fit_dict Val d vals) fixed).
  { split; [rewrite KR; apply nodup_start, N|]. split; [rewrite KF; exact NL|]. split; intros s.
    - rewrite KR. apply in_start.
    - rewrite KF. apply LL. }
  pose proof H as H'. unfold interaction_values in H'. destruct (param_R_names Val m frame cols d) as [names|e] eqn:E; cbn [bind] in H'; [|discriminate]. clear H'.
  apply (C163_same_order Val m frame cols d old _ _ names env N FD E H).
  unfold given_order. rewrite KR, KF. destruct (names_eq m frame cols d names E) as (l2 & E2 & ->). rewrite EL in E2. injection E2 as <-. reflexivity.
Qed.
Print Assumptions C163_fit.

(** [calc] with another number of names than the fit object knows raises an error. *)
Theorem C163_number : forall Val (m : model Val) frame cols d old r fixed names v,
  NoDup (keys fixed) -> param_R_names Val m frame cols d = Ok names -> set_calc_values Val m old r fixed = Ok v ->
  List.length (v_param v) <> List.length names -> interaction_values Val m frame cols d old r fixed = Err TypeError.
Proof.
  intros Val m frame cols d old r fixed names v N E S L. unfold interaction_values. rewrite E, S. cbn [bind]. unfold call_args.
  destruct (Nat.eqb_spec (List.length names) (List.length (v_param v))); [congruence|reflexivity].
Qed.
Print Assumptions C163_number.

(** Two fitted parameters of the scattering functions, given in the other order: the surface and volume terms
    use the right values (by name), the interaction term those of the other parameter. *)
Definition two (a b : string) : defdict := [(a, Fitted); (b, Fitted)].
Definition two_model Val (a b : string) : model Val := mkmodel [a] [b] [a] [b] QNum QNum QNum.
Theorem C163_swapped_refuted : forall Val (old : values Val) frame cols x y,
  exists v, set_calc_values Val (two_model Val "t1" "t2") old [("t2", y); ("t1", x)] [] = Ok v
  /\ dget string_dec "t1" (v_param v) = Some x /\ dget string_dec "t2" (v_param v) = Some y
  /\ exists env, interaction_values Val (two_model Val "t1" "t2") frame cols (two "t1" "t2") old [("t2", y); ("t1", x)] [] = Ok env
     /\ dget string_dec "t1" env = Some y /\ dget string_dec "t2" env = Some x.
Proof.
  intros Val old frame cols x y. eexists. split; [reflexivity|]. split; [reflexivity|]. split; [reflexivity|].
  eexists. split; [reflexivity|]. split; reflexivity.
Qed.
Print Assumptions C163_swapped_refuted.

(** A MultiFits object with two configurations that define the same parameters in a different order: after storing and
    loading, the results of the second configuration are listed in the order of the first one, and its
    interaction term uses exchanged values. *)
Theorem C163_loaded_refuted : forall V (x y x' y' : V) old frame cols id,
  exists t r, multi_frame id [("A", [("t1", [Some x]); ("t2", [Some y])]); ("B", [("t2", [Some y']); ("t1", [Some x'])])] = Ok t
  /\ load_config t id "B" = Ok r /\ dget string_dec "t1" r = Some [x'] /\ dget string_dec "t2" r = Some [y']
  /\ (exists env, interaction_values (list V) (two_model (list V) "t2" "t1") frame cols (two "t2" "t1") old [("t2", [y']); ("t1", [x'])] [] = Ok env
        /\ dget string_dec "t1" env = Some [x'] /\ dget string_dec "t2" env = Some [y'])
  /\ (exists env, interaction_values (list V) (two_model (list V) "t2" "t1") frame cols (two "t2" "t1") old r [] = Ok env
        /\ dget string_dec "t1" env = Some [y'] /\ dget string_dec "t2" env = Some [x']).
Proof.
  intros V x y x' y' old frame cols id. eexists. exists [("t1", [x']); ("t2", [y'])]. split; [reflexivity|].
  split. { unfold load_config. cbn -[String.eqb]. rewrite Z.eqb_refl. reflexivity. }
  split; [reflexivity|]. split; [reflexivity|]. split; eexists; (split; [reflexivity|]); split; reflexivity.
Qed.
Print Assumptions C163_loaded_refuted.

(** a fit with two fitted parameters of the scattering functions and an auxiliary one *)
Example C163_example :
  let d := [("a", Fitted); ("aux", Auxiliary); ("omega", Fitted); ("b", Fitted)] in
  let m := mkmodel ["a"; "aux"] ["b"] ["a"; "aux"] ["b"] QNum QNum QNum : model nat in
  aux_dict nat true ["aux"; "sig"] d (fun _ => 9) = Ok [("aux", 9)]
  /\ fit_dict nat d [1; 2; 3] = [("a", 1); ("omega", 2); ("b", 3)]
  /\ interaction_values nat m true ["aux"; "sig"] d (mkvalues 0 0 0 0 []) (fit_dict nat d [1; 2; 3]) [("aux", 9)] = Ok [("a", 1); ("b", 3); ("aux", 9)]
  /\ param_R_names nat m true ["aux"; "sig"] d = Ok ["a"; "b"; "aux"]
  /\ interaction_values nat m true ["aux"; "sig"] d (mkvalues 0 0 0 0 []) [("a", 1); ("b", 3); ("omega", 2); ("c", 4)] [("aux", 9)] = Err TypeError.
Proof. repeat split. Qed.
