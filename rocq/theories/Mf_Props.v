(** MultiFits containers, callbacks, stored results (C62, C63, C98) *)
From Coq Require Import String Ascii ZArith Bool Lia Arith List.
From Verif Require Import Base Base_Proofs Ids_Model Mf_Model Mf_Spec Mf_Proofs.
Import ListNotations.
Local Open Scope list_scope.

(** ** C62: names of configurations *)
(** Any number of accepted calls with different names and different fit
    objects (no configuration called "_parent"): the names and the
    configurations are listed in the order of the calls, and access by name
    and by number returns the object added. *)
Theorem C62_distinct_names : forall l, (forall x, In x l -> valid_name (fst x)) -> ~ In "_parent"%string (map fst l) ->
  NoDup (map fst l) -> NoDup (map snd l) -> let m := add_configs new_multi l in
  m_names m = map fst l /\ config_fits m = Ok l /\
  (forall n f, In (n, f) l -> getitem_str m n = Ok (Some f)) /\
  (forall k n f, nth_error l k = Some (n, f) -> getitem_int m (Z.of_nat k) = Ok (Some f)).
Proof.
  intros l Hv Hp ND NF m.
  assert (AL : forall n f, In (n, f) l -> added_last l n = Some f).
  { intros n f Hin. unfold added_last. apply dget_in_nodup; [unfold keys; rewrite map_rev; apply NoDup_rev; exact ND|apply in_rev in Hin; exact Hin]. }
  split; [apply names_ok; auto|]. split; [|split].
  - destruct (fits_ok l Hv Hp NF) as (d & E & M & K). unfold m. rewrite E. f_equal.
    rewrite keys_dupdate_new by (unfold keys; rewrite M; exact ND).
    assert (G : forall d' l', map fst d' = map fst l' -> (forall n f, In (n, f) d' -> added_last l n = Some f) -> (forall x, In x l' -> In x l) -> d' = l').
    { induction d' as [|[n f] d' IH]; intros [|[n' f'] l'] E' H1 H2; try discriminate; [reflexivity|]. cbn in E'. injection E' as -> E'.
      f_equal.
      - pose proof (H1 n' f (or_introl eq_refl)) as A. rewrite (AL n' f' (H2 _ (or_introl eq_refl))) in A. congruence.
      - apply IH; auto; intros; [apply H1|apply H2]; right; auto. }
    apply G; auto.
  - intros n f Hin. unfold getitem_str, m. rewrite (parent_ok l Hv Hp). cbn [bind].
    rewrite (proj2 (inb_iff string_dec n (map fst l))) by (apply in_map_iff; exists (n, f); auto). apply attr_ok; auto.
  - intros k n f Hk. unfold getitem_int, m. rewrite (parent_ok l Hv Hp). cbn [bind].
    assert (Hlt : k < length l) by (apply nth_error_Some; congruence). rewrite map_length.
    destruct (Z.ltb_spec (Z.of_nat k) (Z.of_nat (length l))); [|lia]. cbn [negb]. destruct (Z.ltb_spec (Z.of_nat k) 0); [lia|]. destruct (Z.ltb_spec (Z.of_nat k) 0); [lia|].
    rewrite Nat2Z.id. rewrite (map_nth_error fst k l Hk). cbn [fst]. apply attr_ok; auto. apply AL, (nth_error_In _ _ Hk).
Qed.
Print Assumptions C62_distinct_names.

Example C62_example : let l := [("cfg_0"%string, 4); ("cfg_1"%string, 2); ("b"%string, 7)] in let m := add_configs new_multi l in
  (forall x, In x l -> valid_name (fst x)) /\ m_names m = ["cfg_0"; "cfg_1"; "b"]%string /\ config_fits m = Ok l /\ getitem_int m (-1) = Ok (Some 7).
Proof.
  split; [|repeat split; reflexivity]. intros x Hx. cbn in Hx. unfold valid_name. intuition; subst; try reflexivity; cbn in *; intuition discriminate.
Qed.

(** also with repeated names: a name gives the object added last, and the
    accessor has every name once, in the order of first occurrence *)
Theorem C62_last_wins : forall l, (forall x, In x l -> valid_name (fst x)) -> ~ In "_parent"%string (map fst l) ->
  let m := add_configs new_multi l in
  (forall n, In n (map fst l) -> exists f, added_last l n = Some f /\ getitem_str m n = Ok (Some f)) /\
  (NoDup (map snd l) -> exists d, config_fits m = Ok d /\ keys d = first_occurrences (map fst l) /\
     forall n f, dget string_dec n d = Some f -> added_last l n = Some f).
Proof.
  intros l Hv Hp m. split.
  - intros n Hn. destruct (added_last_some l n Hn) as [f E]. exists f. split; [exact E|].
    unfold getitem_str, m. rewrite (parent_ok l Hv Hp). cbn [bind]. rewrite (proj2 (inb_iff string_dec n (map fst l)) Hn). apply attr_ok; auto.
  - intros NF. destruct (fits_ok l Hv Hp NF) as (d & E & M & K). exists (dupdate string_dec [] d). split; [exact E|]. split.
    + rewrite keys_dupdate_occ, M. reflexivity.
    + apply dget_dupdate_all. exact K.
Qed.
Print Assumptions C62_last_wins.

Example C62_example_repeated : let l := [("a"%string, 1); ("b"%string, 2); ("a"%string, 3)] in
  config_fits (add_configs new_multi l) = Ok [("a"%string, 3); ("b"%string, 2)].
Proof. reflexivity. Qed.

(** But config_names contains a repeated name twice, and access by number counts it twice. *)
Theorem C62_refuted : exists l, (forall x, In x l -> valid_name (fst x)) /\ NoDup (map snd l) /\ let m := add_configs new_multi l in
  ~ NoDup (m_names m) /\ getitem_int m 2 = Ok (Some 3) /\ getitem_int m 0 = Ok (Some 3).
Proof.
  exists [("a"%string, 1); ("b"%string, 2); ("a"%string, 3)]. split; [|split; [|split; [|split; reflexivity]]].
  - intros x Hx. cbn in Hx. unfold valid_name. intuition; subst; try reflexivity; cbn in *; intuition discriminate.
  - repeat constructor; cbn; intuition discriminate.
  - intros H. cbn in H. inversion H as [|? ? Hn _]; subst. apply Hn. cbn. auto.
Qed.
Print Assumptions C62_refuted.

(** One object added under two names: the first name is lost in the accessor. *)
Theorem C62_same_object_refuted : exists l, (forall x, In x l -> valid_name (fst x)) /\ NoDup (map fst l) /\
  let m := add_configs new_multi l in m_names m = map fst l /\ exists d, config_fits m = Ok d /\ ~ In (fst (hd (""%string, 0) l)) (keys d).
Proof.
  exists [("a"%string, 1); ("b"%string, 1)]. split; [|split; [|split; [reflexivity|]]].
  - intros x Hx. cbn in Hx. unfold valid_name. intuition; subst; try reflexivity; cbn in *; intuition discriminate.
  - repeat constructor; cbn; intuition discriminate.
  - eexists. split; [reflexivity|]. cbn. intuition discriminate.
Qed.
Print Assumptions C62_same_object_refuted.

(** The accepted name "_parent" makes every configuration inaccessible. *)
Theorem C62_parent_refuted : forall l f, (forall x, In x l -> valid_name (fst x)) ->
  valid_name "_parent" /\
  let m := add_configs new_multi (l ++ [("_parent"%string, f)]) in
  config_fits m = Err AttributeError /\ (forall n, getitem_str m n = Err AttributeError) /\ (forall k, getitem_int m k = Err AttributeError).
Proof.
  intros l f Hv. split; [split; [reflexivity|cbn; intuition discriminate]|]. cbv zeta.
  assert (Hv' : forall x, In x (l ++ [("_parent"%string, f)]) -> valid_name (fst x)).
  { intros x Hx. apply in_app_or in Hx. destruct Hx as [Hx|[<-|[]]]; [auto|]. split; [reflexivity|cbn; intuition discriminate]. }
  assert (E : parent_names (add_configs new_multi (l ++ [("_parent"%string, f)])) = Err AttributeError).
  { unfold parent_names, get_attr. destruct (add_configs_state _ new_multi Hv') as (_ & -> & _). unfold added_last. rewrite rev_app_distr. reflexivity. }
  split; [|split].
  - unfold config_fits, iter_configs. rewrite E. reflexivity.
  - intros n. unfold getitem_str. rewrite E. reflexivity.
  - intros k. unfold getitem_int. rewrite E. reflexivity.
Qed.
Print Assumptions C62_parent_refuted.

(** ** C98: callbacks of the accessor *)
(** keyword arguments: those of the accessor call, replaced by those of the
    call of the callback *)
Theorem C98_keywords_override : forall A (c : callback A) kw, NoDup (keys kw) ->
  exists r, fst (call c [] kw) = Ok (cb_args c, r) /\
    forall k, dget string_dec k r = match dget string_dec k kw with Some v => Some v | None => dget string_dec k (cb_kwargs c) end.
Proof. intros A c kw ND. eexists. split; [reflexivity|]. intros k. apply dget_dupdate. exact ND. Qed.
Print Assumptions C98_keywords_override.

Example C98_example : fst (call (mkcb [1] [("a"%string, 5); ("b"%string, 6)]) [] [("b"%string, 7)]) = Ok ([1], [("a"%string, 5); ("b"%string, 7)]).
Proof. reflexivity. Qed.

(** positional arguments cannot be replaced: every such call raises *)
Theorem C98_positional_refuted : forall A (c : callback A) a args kw, exists e, fst (call c (a :: args) kw) = Err e /\ snd (call c (a :: args) kw) = c.
Proof. intros. eexists. split; reflexivity. Qed.
Print Assumptions C98_positional_refuted.

(** keywords of an earlier call stay *)
Theorem C98_sticky_refuted : exists (c : callback nat) k1 k2 r, NoDup (keys k1) /\ NoDup (keys k2) /\
  calls c [([], k1); ([], k2)] = [Ok (cb_args c, k1); Ok (cb_args c, r)] /\ r <> dupdate string_dec (cb_kwargs c) k2.
Proof.
  exists (mkcb [] []), [("print_progress"%string, 1)], []. eexists. repeat split; try reflexivity; try (repeat constructor; cbn; tauto). discriminate.
Qed.
Print Assumptions C98_sticky_refuted.

(** if every call gives the same keywords (with any values), each is
    independent of the others *)
Theorem C98_same_keywords : forall A (c : callback A) l, (forall a kw, In (a, kw) l -> a = [] /\ NoDup (keys kw)) ->
  (forall a kw a' kw', In (a, kw) l -> In (a', kw') l -> forall k, In k (keys kw) -> In k (keys kw')) ->
  forall i a kw, nth_error l i = Some (a, kw) -> exists r, nth_error (calls c l) i = Some (Ok (cb_args c, r)) /\
    forall k, dget string_dec k r = match dget string_dec k kw with Some v => Some v | None => dget string_dec k (cb_kwargs c) end.
Proof.
  intros A c l H1 H2.
  assert (G : forall l c', (forall a kw, In (a, kw) l -> a = [] /\ NoDup (keys kw)) -> cb_args c' = cb_args c ->
     (forall a kw k, In (a, kw) l -> ~ In k (keys kw) -> dget string_dec k (cb_kwargs c') = dget string_dec k (cb_kwargs c)) ->
     (forall a kw a' kw', In (a, kw) l -> In (a', kw') l -> forall k, In k (keys kw) -> In k (keys kw')) ->
     forall i a kw, nth_error l i = Some (a, kw) -> exists r, nth_error (calls c' l) i = Some (Ok (cb_args c, r)) /\
       forall k, dget string_dec k r = match dget string_dec k kw with Some v => Some v | None => dget string_dec k (cb_kwargs c) end).
  { clear l H1 H2. induction l as [|[a0 kw0] l IH]; intros c' H1 Ha Hd H2 i a kw Hi; [destruct i; discriminate|].
    destruct (H1 a0 kw0 (or_introl eq_refl)) as [-> ND0]. destruct i as [|i]; cbn [nth_error] in Hi.
    - injection Hi as <- <-. cbn. rewrite Ha. eexists. split; [reflexivity|]. intros k. rewrite (dget_dupdate string_dec k kw0 _ ND0).
      destruct (dget string_dec k kw0) eqn:E; [reflexivity|]. apply (Hd [] kw0); [left; reflexivity|]. apply (proj2 (dget_none string_dec k kw0)). exact E.
    - cbn [calls call]. cbn [nth_error]. apply (IH (mkcb (cb_args c') (dupdate string_dec (cb_kwargs c') kw0))) with (a := a).
      + intros; apply H1; right; auto.
      + exact Ha.
      + intros a' kw' k Hin Hk. cbn. rewrite (dget_dupdate string_dec k kw0 _ ND0).
        assert (Hk0 : ~ In k (keys kw0)) by (intros X; apply Hk; apply (H2 [] kw0 a' kw'); [left; reflexivity|right; exact Hin|exact X]).
        rewrite (proj1 (dget_none string_dec k kw0) Hk0). apply (Hd [] kw0); [left; reflexivity|exact Hk0].
      + intros; eapply H2; eauto; right; eauto.
      + exact Hi. }
  intros i a kw Hi. apply (G l c H1 eq_refl (fun _ _ _ _ _ => eq_refl) H2 i a kw Hi).
Qed.
Print Assumptions C98_same_keywords.

Example C98_example_same : calls (mkcb [3] [("x"%string, 0)]) [([], [("k"%string, 1)]); ([], [("k"%string, 2)])] =
  [Ok ([3], [("x"%string, 0); ("k"%string, 1)]); Ok ([3], [("x"%string, 0); ("k"%string, 2)])].
Proof. reflexivity. Qed.

(** ** C63: stored results *)
(** A container with any number of fits with the same parameters: loading a
    fit gives every parameter with its values that are not NaN. *)
Theorem C63_single : forall V (fits : list (Z * resdict V)) t id rd ks, stored fits t -> NoDup (map fst fits) -> In (id, rd) fits ->
  (forall i r, In (i, r) fits -> map fst r = ks) -> NoDup ks -> 0 < height rd ->
  load_single t id = Ok (map (fun kv => (fst kv, numbers (snd kv))) rd).
Proof.
  intros V fits t id rd ks Hs ND Hin Hk NK Hh. pose proof (stored_filter fits t Hs id rd ND Hin) as E. unfold load_single.
  set (rs := filter (fun r => Z.eqb (r_id r) id) t) in *. symmetry in E.
  assert (Hr : rs <> []).
  { apply res_frame_rows in E. destruct E as [_ ->]. destruct (height rd); [lia|discriminate]. }
  assert (Ht : t <> []) by (intros ->; apply Hr; reflexivity).
  assert (C : columns t = ks).
  { apply columns_same; auto. intros r Hir. destruct (stored_cells fits t Hs r Hir) as (i & rd' & Hin' & ->). apply (Hk i rd' Hin'). }
  rewrite C, <- (Hk id rd Hin), map_map.
  assert (G : map (fun x : string * list (cell V) => (fst x, dropna (map (fun r => cell_at r (fst x)) rs))) rd = map (fun kv => (fst kv, numbers (snd kv))) rd).
  { apply map_ext_in. intros [k l] Hkl. cbn [fst snd]. f_equal. rewrite (frame_values _ _ _ _ k E).
    assert (X : dget string_dec k rd = Some (l : list (cell V))); [|rewrite X; reflexivity].
    apply (dget_in_nodup string_dec); [|exact Hkl]. unfold keys. rewrite (Hk id rd Hin). exact NK. }
  rewrite G. destruct rs; [congruence|reflexivity].
Qed.
Print Assumptions C63_single.

(** hence the results are recovered exactly iff no value is NaN *)
Theorem C63_single_exact : forall V (fits : list (Z * resdict V)) t id rd ks, stored fits t -> NoDup (map fst fits) -> In (id, rd) fits ->
  (forall i r, In (i, r) fits -> map fst r = ks) -> NoDup ks -> 0 < height rd ->
  exists d, load_single t id = Ok d /\ (map (fun kv => (fst kv, map Some (snd kv))) d = rd <-> complete rd).
Proof.
  intros V fits t id rd ks Hs ND Hin Hk NK Hh. eexists. split; [apply (C63_single V fits t id rd ks); auto|]. rewrite map_map. cbn [fst snd].
  unfold complete. clear. split.
  - intros H k l Hin. rewrite <- H in Hin. apply in_map_iff in Hin. destruct Hin as ([k' l'] & E & _). cbn in E. injection E as _ <-.
    intros X. apply in_map_iff in X. destruct X as (v & X & _). discriminate.
  - intros H. induction rd as [|[k l] rd IH]; [reflexivity|]. cbn [map fst snd]. f_equal.
    + f_equal. symmetry. apply (proj1 (dropna_complete l)). apply (H k l). left. reflexivity.
    + apply IH. intros k' l' Hin. apply (H k' l'). right. exact Hin.
Qed.
Print Assumptions C63_single_exact.

Example C63_example : exists t, stored [(7%Z, [("tau"%string, [Some 1; Some 2; Some 3]); ("N"%string, [Some 9])]); (8%Z, [("tau"%string, [Some 5]); ("N"%string, [Some 6; Some 4])])] t /\
  load_single t 8 = Ok [("tau"%string, [5]); ("N"%string, [6; 4])].
Proof.
  eexists. split.
  - eapply stored_cons; [reflexivity|]. eapply stored_cons; [reflexivity|]. apply stored_nil.
  - reflexivity.
Qed.

(** A NaN among the results shifts the values behind it. *)
Theorem C63_refuted : exists (rd : resdict nat) t, stored [(0%Z, rd)] t /\ load_single t 0 = Ok [("tau"%string, [1; 3])] /\ rd = [("tau"%string, [Some 1; None; Some 3])].
Proof. eexists. eexists. split; [|split; [|reflexivity]]; [eapply stored_cons; [reflexivity|apply stored_nil]|reflexivity]. Qed.
Print Assumptions C63_refuted.

(** Fits with several configurations (with any parameters): every parameter
    with at least one value is loaded with its values that are not NaN. *)
Theorem C63_multi : forall V (fits : list (Z * list (string * resdict V))) t id cs cfg rd, stored_multi fits t -> NoDup (map fst fits) ->
  In (id, cs) fits -> NoDup (map fst cs) -> In (cfg, rd) cs -> 0 < height rd ->
  exists d, load_config t id cfg = Ok d /\
    forall k, dget string_dec k d = match dget string_dec k rd with Some l => match numbers l with [] => None | _ => Some (numbers l) end | None => None end.
Proof.
  intros V fits t id cs cfg rd Hs ND Hin NC Hc Hh. pose proof (stored_multi_filter fits t Hs id cs cfg rd ND Hin NC Hc) as E. unfold load_config.
  set (P := fun r : row V => Z.eqb (r_id r) id && String.eqb (r_cfg r) cfg) in *. set (rs := filter P t) in *. symmetry in E.
  assert (Hr : rs <> []).
  { pose proof (res_frame_rows _ _ _ _ E) as [_ ->]. destruct (height rd); [lia|discriminate]. }
  exists (filter (fun kv : string * list V => match snd kv with [] => false | _ => true end) (map (fun k => (k, dropna (map (fun r => cell_at r k) rs))) (columns t))).
  split; [destruct rs; [congruence|reflexivity]|]. intros k. rewrite dget_filter_map, (frame_values _ _ _ _ k E).
  destruct (dget string_dec k rd) as [l|] eqn:El; [|reflexivity]. change (dropna l) with (numbers l). destruct (numbers l) as [|v vs] eqn:En; [reflexivity|].
  destruct (in_dec string_dec k (columns t)) as [|N]; [reflexivity|]. exfalso. apply N, columns_in.
  destruct rs as [|r rs'] eqn:Er; [congruence|]. exists r. split.
  - assert (Hf : In r (filter P t)) by (fold rs; rewrite Er; left; reflexivity). apply filter_In in Hf. tauto.
  - rewrite (frame_cells _ _ _ _ E r (or_introl eq_refl)). apply in_map_iff. exists (k, l). split; [reflexivity|]. apply (dget_some_in string_dec), El.
Qed.
Print Assumptions C63_multi.

Example C63_example_multi : exists t, stored_multi [(7%Z, [("c0"%string, [("tau"%string, [Some 1; Some 2])]); ("c1"%string, [("N"%string, [Some 9]); ("tau"%string, [Some 4])])])] t /\
  load_config t 7 "c0" = Ok [("tau"%string, [1; 2])] /\ load_config t 7 "c1" = Ok [("tau"%string, [4]); ("N"%string, [9])].
Proof. eexists. split; [eapply storedm_cons; [reflexivity|apply storedm_nil]|]. split; reflexivity. Qed.

(** exact iff every parameter has values and none is NaN *)
Theorem C63_multi_exact : forall V (fits : list (Z * list (string * resdict V))) t id cs cfg rd, stored_multi fits t -> NoDup (map fst fits) ->
  In (id, cs) fits -> NoDup (map fst cs) -> In (cfg, rd) cs -> 0 < height rd ->
  exists d, load_config t id cfg = Ok d /\
    ((forall k, option_map (map Some) (dget string_dec k d) = dget string_dec k rd) <->
     (forall k l, dget string_dec k rd = Some l -> l <> [] /\ ~ In None l)).
Proof.
  intros V fits t id cs cfg rd Hs ND Hin NC Hc Hh. destruct (C63_multi V fits t id cs cfg rd Hs ND Hin NC Hc Hh) as (d & E & H). exists d. split; [exact E|]. split.
  - intros X k l Hk. specialize (X k). rewrite H, Hk in X. destruct (numbers l) as [|v vs] eqn:En; [discriminate|]. cbn in X. injection X as X.
    subst l. split; [discriminate|]. intros [Y|Y]; [discriminate|]. apply in_map_iff in Y. destruct Y as (z & Y & _). discriminate.
  - intros X k. rewrite H. destruct (dget string_dec k rd) as [l|] eqn:Ek; [|reflexivity]. destruct (X k l Ek) as [X1 X2].
    apply (proj1 (dropna_complete l)) in X2. change (dropna l) with (numbers l) in X2. destruct (numbers l); [destruct l; [congruence|discriminate]|]. cbn [option_map]. f_equal. symmetry. exact X2.
Qed.
Print Assumptions C63_multi_exact.
