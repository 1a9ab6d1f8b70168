(** Lemmas for the export of results. *)
From Coq Require Import String ZArith QArith Bool Permutation Lia List.
From Verif Require Import Base Base_Proofs Exp_Model Exp_Spec.
Import ListNotations.
Local Open Scope list_scope.

(** ** the classification *)
Definition names (p : defn -> bool) (d : dict string defn) : list string :=
  map fst (filter (fun kv => p (snd kv)) d).
Definition freqs (p : defn -> bool) (d : dict string defn) : list (string * pyv) :=
  map (fun kv => (fst kv, n_freq (snd kv))) (filter (fun kv => p (snd kv)) d).

Definition b_fit v := is_true (n_fitQ v).
Definition b_const v := b_fit v && is_none (n_freq v).
Definition b_dyn v := b_fit v && negb (is_none (n_freq v)).
Definition b_man v := b_fit v && eq_str (n_freq v) "manual".
Definition b_idx v := b_fit v && eq_str (n_freq v) "index".
Definition b_date v := b_fit v && match n_freq v with
  | PStr s => negb (String.eqb s "manual") && negb (String.eqb s "index") | _ => false end.
Definition b_int v := b_fit v && match n_freq v with PInt _ | PBool _ => true | _ => false end.
Definition b_aux v := negb (b_fit v) && eq_str (n_val v) "auxiliary".
Definition b_fix v := negb (b_fit v) && negb (eq_str (n_val v) "auxiliary").

Lemma names_cons p key v d : names p ((key, v) :: d) = (if p v then [key] else []) ++ names p d.
Proof. unfold names. cbn [filter snd]. destruct (p v); reflexivity. Qed.
Lemma freqs_cons p key v d : freqs p ((key, v) :: d) = (if p v then [(key, n_freq v)] else []) ++ freqs p d.
Proof. unfold freqs. cbn [filter snd]. destruct (p v); reflexivity. Qed.

Lemma parser_acc d : forall f fc fd fm fi ft fz c a,
  fold_left parse_step d (mkspecs f fc fd fm fi ft fz c a) =
  mkspecs (f ++ names b_fit d) (fc ++ names b_const d) (fd ++ names b_dyn d) (fm ++ names b_man d)
    (fi ++ names b_idx d) (ft ++ freqs b_date d) (fz ++ freqs b_int d) (c ++ names b_fix d) (a ++ names b_aux d).
Proof.
  induction d as [|[key v] d IH]; intros; [cbn; rewrite !app_nil_r; reflexivity|].
  cbn [fold_left]. rewrite !names_cons, !freqs_cons, !app_assoc.
  assert (S : parse_step (mkspecs f fc fd fm fi ft fz c a) (key, v) =
    mkspecs (f ++ if b_fit v then [key] else []) (fc ++ if b_const v then [key] else [])
      (fd ++ if b_dyn v then [key] else []) (fm ++ if b_man v then [key] else [])
      (fi ++ if b_idx v then [key] else []) (ft ++ if b_date v then [(key, n_freq v)] else [])
      (fz ++ if b_int v then [(key, n_freq v)] else []) (c ++ if b_fix v then [key] else [])
      (a ++ if b_aux v then [key] else [])).
  { unfold parse_step, b_const, b_dyn, b_man, b_idx, b_date, b_int, b_fix, b_aux, b_fit.
    destruct (is_true (n_fitQ v)) eqn:E1; cbn [andb negb].
    - destruct (n_freq v) as [|b|z|q|s] eqn:E2; cbn [is_none eq_str negb andb]; try (rewrite !app_nil_r; reflexivity).
      destruct (String.eqb_spec s "manual") as [->|N1].
      + cbn. rewrite !app_nil_r; reflexivity.
      + destruct (String.eqb_spec s "index") as [->|N2]; cbn [negb andb]; rewrite !app_nil_r; reflexivity.
    - destruct (eq_str (n_val v) "auxiliary"); cbn [negb]; rewrite !app_nil_r; reflexivity. }
  rewrite S. apply IH.
Qed.

Lemma parser_eq d : defdict_parser d =
  mkspecs (names b_fit d) (names b_const d) (names b_dyn d) (names b_man d)
    (names b_idx d) (freqs b_date d) (freqs b_int d) (names b_fix d) (names b_aux d).
Proof. unfold defdict_parser. rewrite parser_acc. reflexivity. Qed.

Lemma in_names p d key : In key (names p d) <-> exists v, In (key, v) d /\ p v = true.
Proof.
  unfold names. rewrite in_map_iff. split.
  - intros ([k v] & <- & H). apply filter_In in H. exists v. exact H.
  - intros (v & H1 & H2). exists (key, v). split; [reflexivity|]. apply filter_In. auto.
Qed.

Lemma in_freqs p d key f : In (key, f) (freqs p d) <-> exists v, In (key, v) d /\ p v = true /\ f = n_freq v.
Proof.
  unfold freqs. rewrite in_map_iff. split.
  - intros ([k v] & Q & H). apply filter_In in H. inversion Q; subst. exists v. cbn in *. tauto.
  - intros (v & H1 & H2 & ->). exists (key, v). split; [reflexivity|]. apply filter_In. auto.
Qed.

Lemma b_fit_iff v : b_fit v = true <-> is_fitted v.
Proof. unfold b_fit, is_fitted, is_true. destruct (n_fitQ v) as [|[]| | |]; split; congruence. Qed.
Lemma is_none_iff f : is_none f = true <-> f = PNone.
Proof. destruct f; cbn; split; congruence. Qed.
Lemma eq_str_iff v s : eq_str v s = true <-> v = PStr s.
Proof.
  destruct v; cbn; try (split; congruence). rewrite String.eqb_eq. split; congruence.
Qed.
Lemma negb_iff (b : bool) P : (b = true <-> P) -> (negb b = true <-> ~ P).
Proof. destruct b; cbn; intuition congruence. Qed.

Lemma b_const_iff v : b_const v = true <-> is_fitted v /\ ~ is_dynamic v.
Proof.
  unfold b_const, is_dynamic. rewrite andb_true_iff, b_fit_iff, is_none_iff.
  destruct (n_freq v); intuition congruence.
Qed.
Lemma b_dyn_iff v : b_dyn v = true <-> is_fitted v /\ is_dynamic v.
Proof.
  unfold b_dyn, is_dynamic. rewrite andb_true_iff, b_fit_iff, (negb_iff _ _ (is_none_iff _)). tauto.
Qed.
Lemma b_aux_iff v : b_aux v = true <-> ~ is_fitted v /\ is_auxiliary v.
Proof. unfold b_aux, is_auxiliary. rewrite andb_true_iff, (negb_iff _ _ (b_fit_iff v)), eq_str_iff. tauto. Qed.
Lemma b_fix_iff v : b_fix v = true <-> ~ is_fitted v /\ ~ is_auxiliary v.
Proof.
  unfold b_fix, is_auxiliary. rewrite andb_true_iff, (negb_iff _ _ (b_fit_iff v)), (negb_iff _ _ (eq_str_iff _ _)). tauto.
Qed.

(** splitting by a test *)
Lemma names_split p q1 q2 d :
  (forall v, p v = true -> xorb (q1 v) (q2 v) = true) -> (forall v, p v = false -> q1 v = false /\ q2 v = false) ->
  Permutation (names p d) (names q1 d ++ names q2 d).
Proof.
  intros H1 H2. induction d as [|[key v] d IH]; [constructor|].
  unfold names in *. cbn [filter snd]. destruct (p v) eqn:E.
  - specialize (H1 v E). destruct (q1 v), (q2 v); cbn in H1; try discriminate; cbn [map fst app].
    + constructor. exact IH.
    + apply Permutation_cons_app. exact IH.
  - destruct (H2 v E) as [-> ->]. exact IH.
Qed.

Lemma names_all p d : (forall v, p v = true) -> names p d = keys d.
Proof.
  intros H. unfold names, keys. f_equal. induction d as [|[k v] d IH]; [reflexivity|]. cbn [filter snd]. rewrite H, IH. reflexivity.
Qed.

Lemma in_dget {A} key (v : A) d : NoDup (keys d) -> (In (key, v) d <-> dget string_dec key d = Some v).
Proof.
  intros Hn. induction d as [|[k w] d IH]; [cbn; split; [tauto|discriminate]|]. inversion Hn; subst.
  cbn [In dget]. destruct (string_dec key k) as [->|N].
  - split.
    + intros [Q|Q]; [congruence|]. exfalso. apply H1. apply (in_map fst) in Q. exact Q.
    + intros Q. left. congruence.
  - rewrite <- (IH H2). split; [intros [Q|Q]; [congruence|exact Q]|auto].
Qed.

Lemma inb_names p d key v : NoDup (keys d) -> dget string_dec key d = Some v ->
  inb string_dec key (names p d) = p v.
Proof.
  intros Hn Hg. destruct (p v) eqn:E.
  - apply inb_iff. apply in_names. exists v. split; [apply in_dget; assumption|exact E].
  - destruct (inb string_dec key (names p d)) eqn:I; [|reflexivity]. apply inb_iff, in_names in I.
    destruct I as (w & Hw & Ew). apply (in_dget _ _ _ Hn) in Hw. congruence.
Qed.

Lemma inb_neg key l : inb string_dec key l = false <-> ~ In key l.
Proof.
  split.
  - intros E Q. apply (proj2 (inb_iff string_dec _ _)) in Q. congruence.
  - intros N. destruct (inb string_dec key l) eqn:E; [|reflexivity]. apply inb_iff in E. contradiction.
Qed.

Lemma dset_fresh {A} k (v : A) d : ~ In k (keys d) -> dset string_dec k v d = d ++ [(k, v)].
Proof.
  induction d as [|[a b] d IH]; simpl; [reflexivity|]. intros H.
  destruct (string_dec k a) as [->|]; [exfalso; apply H; left; reflexivity|].
  rewrite IH; [reflexivity|]. intros Hi; apply H; right; exact Hi.
Qed.

Section Export.
Variables Col Val : Type.
Variables to_dB to_degree : Col -> Col.
Variable set_indexer : bool.
Variable lower : string -> string.
Notation fitobj := (fitobj Col Val).
Notation Series := (Series Col Val).
Notation Single := (Single Col Val).
Notation Nothing := (Nothing Col Val).
Notation part := (part Col Val).
Notation gstep := (get_param_step Col Val to_dB to_degree).
Notation gparams := (get_params Col Val to_dB to_degree).

(** ** the parameters *)
Definition src (sd ideg : bool) (fit : fitobj) (key : string) : option part :=
  if String.eqb key "sig" then
    match dget string_dec "sig"%string (f_dataset _ _ fit) with
    | Some c => Some (Series (if negb (f_dB _ _ fit) && sd then to_dB c else c)) | None => None end
  else if String.eqb key "inc" && ideg then
    match dget string_dec "inc"%string (f_dataset _ _ fit) with
    | Some c => Some (Series (to_degree c)) | None => None end
  else match dget string_dec key (f_defdict _ _ fit) with
       | Some v =>
           if b_dyn v then match dget string_dec key (f_res_df _ _ fit) with Some c => Some (Series c) | None => None end
           else if b_const v then match dget string_dec key (f_res_dict _ _ fit) with Some (x :: _) => Some (Single x) | _ => None end
           else if b_fix v then None
           else match dget string_dec key (f_dataset _ _ fit) with Some c => Some (Series c) | None => None end
       | None =>
           match dget string_dec key (f_dataset _ _ fit) with
           | Some c => Some (Series (if inb string_dec key ["tot"; "surf"; "vol"; "inter"]%string && negb (f_dB _ _ fit) && sd
                                     then to_dB c else c))
           | None => match dget string_dec key (f_reader_arg _ _ fit) with Some v => Some (Single v) | None => Some Nothing end
           end
       end.

Definition ser (f : string -> option part) (k : string) : list (string * Col) :=
  match f k with Some (Exp_Spec.Series _ _ c) => [(k, c)] | _ => [] end.
Definition sgl (f : string -> option part) (k : string) : list (string * Val) :=
  match f k with Some (Exp_Spec.Single _ _ v) => [(k, v)] | _ => [] end.

Lemma b_cases v : b_dyn v = false -> b_const v = false -> b_fix v = false -> b_aux v = true.
Proof.
  unfold b_dyn, b_const, b_fix, b_aux. destruct (b_fit v), (is_none (n_freq v)), (eq_str (n_val v) "auxiliary"); cbn; congruence.
Qed.

Lemma step_src fit sd ideg key dyn stat : NoDup (keys (f_defdict _ _ fit)) ->
  match src sd ideg fit key with
  | Some p => gstep fit sd ideg key (dyn, stat) =
      Ok (dyn ++ ser (src sd ideg fit) key,
          match p with Exp_Spec.Single _ _ v => dset string_dec key v stat | _ => stat end)
  | None => exists e, gstep fit sd ideg key (dyn, stat) = Err e
  end.
Proof.
  intros Hn. unfold ser, src, get_param_step. rewrite parser_eq. cbn [fitted_dynamic fitted_const constant auxiliary].
  destruct (String.eqb_spec key "sig") as [->|N].
  { destruct (dget string_dec "sig"%string (f_dataset _ _ fit)); [reflexivity|eauto]. }
  destruct (String.eqb key "inc" && ideg) eqn:Ei.
  { destruct (dget string_dec "inc"%string (f_dataset _ _ fit)); [reflexivity|eauto]. }
  unfold dmem. destruct (dget string_dec key (f_defdict _ _ fit)) as [v|] eqn:Ed.
  - rewrite !(inb_names _ _ key v Hn Ed). unfold item.
    destruct (b_dyn v) eqn:E1; [destruct (dget string_dec key (f_res_df _ _ fit)); cbn; [reflexivity|eauto]|].
    destruct (b_const v) eqn:E2.
    { destruct (dget string_dec key (f_res_dict _ _ fit)) as [[|x r]|]; cbn; [eauto| |eauto]. rewrite app_nil_r. reflexivity. }
    destruct (b_fix v) eqn:E3; [eauto|]. rewrite (b_cases v E1 E2 E3).
    destruct (dget string_dec key (f_dataset _ _ fit)); cbn; [reflexivity|eauto].
  - destruct (dget string_dec key (f_dataset _ _ fit)); [reflexivity|].
    destruct (dget string_dec key (f_reader_arg _ _ fit)); rewrite app_nil_r; reflexivity.
Qed.

Lemma get_params_src fit sd ideg : NoDup (keys (f_defdict _ _ fit)) -> forall ks dyn stat,
  NoDup ks -> (forall k, In k ks -> ~ In k (keys stat)) ->
  (forall k, In k ks -> src sd ideg fit k <> None) ->
  gparams fit sd ideg ks (dyn, stat) =
  Ok (dyn ++ flat_map (ser (src sd ideg fit)) ks, stat ++ flat_map (sgl (src sd ideg fit)) ks).
Proof.
  intros Hn. induction ks as [|k ks IH]; intros dyn stat Hk Hs Hp; [cbn; rewrite !app_nil_r; reflexivity|].
  cbn [get_params]. assert (S := step_src fit sd ideg k dyn stat Hn).
  destruct (src sd ideg fit k) as [p|] eqn:Ep; [|exfalso; apply (Hp k); [left; reflexivity|exact Ep]].
  rewrite S. cbn [bind]. inversion Hk as [|? ? Hni Hk' Q]. cbn [flat_map].
  assert (T : match p with Exp_Spec.Single _ _ v => dset string_dec k v stat | _ => stat end =
              stat ++ sgl (src sd ideg fit) k).
  { unfold sgl. rewrite Ep. destruct p; try (rewrite app_nil_r; reflexivity).
    apply dset_fresh. apply Hs. left; reflexivity. }
  rewrite T, IH.
  - rewrite !app_assoc. reflexivity.
  - exact Hk'.
  - intros j Hj. unfold keys. rewrite map_app, in_app_iff. intros [H1|H1].
    + apply (Hs j); [right; exact Hj|exact H1].
    + unfold sgl in H1. rewrite Ep in H1. destruct p; cbn in H1; try tauto. destruct H1 as [<-|[]]. contradiction.
  - intros j Hj. apply Hp. right; exact Hj.
Qed.

Lemma get_params_bad fit sd ideg : NoDup (keys (f_defdict _ _ fit)) -> forall ks l k,
  In k ks -> src sd ideg fit k = None -> exists e, gparams fit sd ideg ks l = Err e.
Proof.
  intros Hn. induction ks as [|j ks IH]; intros l k Hi E; [destruct Hi|].
  cbn [get_params]. destruct l as [dyn stat]. assert (S := step_src fit sd ideg j dyn stat Hn).
  destruct Hi as [->|Hi].
  - rewrite E in S. destruct S as [e S]. exists e. rewrite S. reflexivity.
  - destruct (gstep fit sd ideg j (dyn, stat)) as [l'|e]; [|exists e; reflexivity]. cbn [bind].
    eapply IH; eassumption.
Qed.

(** the error is an AttributeError when it comes from a constant *)
Lemma step_constant fit sd ideg key l : NoDup (keys (f_defdict _ _ fit)) ->
  is_constant _ _ fit key -> (key = "inc"%string -> ideg = false) -> gstep fit sd ideg key l = Err AttributeError.
Proof.
  clear lower.
  intros Hn (Ns & v & Hv & Nf & Na) Hinc. unfold get_param_step. destruct l as [dyn stat]. rewrite parser_eq.
  cbn [fitted_dynamic fitted_const constant auxiliary].
  destruct (String.eqb_spec key "sig") as [|_]; [contradiction|].
  assert (E : String.eqb key "inc" && ideg = false).
  { destruct (String.eqb_spec key "inc") as [->|]; [rewrite Hinc; reflexivity|reflexivity]. }
  rewrite E. unfold has in Hv. unfold dmem. rewrite Hv. rewrite !(inb_names _ _ key v Hn Hv).
  assert (F := proj2 (b_fix_iff v) (conj Nf Na)).
  assert (D : b_dyn v = false) by (destruct (b_dyn v) eqn:Q; [apply b_dyn_iff in Q; tauto|reflexivity]).
  assert (K : b_const v = false) by (destruct (b_const v) eqn:Q; [apply b_const_iff in Q; tauto|reflexivity]).
  rewrite D, K, F. reflexivity.
Qed.

Lemma not_true b : ~ b = true -> b = false.
Proof. destruct b; congruence. Qed.

Lemma dget_lacks {A} key (d : dict string A) : lacks key d <-> dget string_dec key d = None.
Proof.
  unfold lacks. rewrite (dget_in_keys string_dec). destruct (dget string_dec key d); split; intros H; try congruence.
  exfalso. apply H. discriminate.
Qed.

Lemma found_iff fit key p : found _ _ fit key p <-> src false false fit key = Some p.
Proof.
  clear lower.
  unfold src. split.
  - intros H. destruct H; unfold has in *; try (destruct (String.eqb_spec key "sig") as [|_]; [contradiction|]);
      rewrite ?andb_false_r; try (apply dget_lacks in H0; rewrite H0); try (apply dget_lacks in H1);
      try (apply dget_lacks in H2).
    + cbn [String.eqb Ascii.eqb Bool.eqb]. rewrite H. reflexivity.
    + rewrite H0. rewrite (proj2 (b_dyn_iff v) (conj H1 H2)), H3. reflexivity.
    + rewrite H0. rewrite (not_true (b_dyn v)) by (rewrite b_dyn_iff; tauto).
      rewrite (proj2 (b_const_iff v) (conj H1 H2)), H3. reflexivity.
    + rewrite H0. rewrite (not_true (b_dyn v)) by (rewrite b_dyn_iff; tauto).
      rewrite (not_true (b_const v)) by (rewrite b_const_iff; tauto).
      rewrite (not_true (b_fix v)) by (rewrite b_fix_iff; tauto). rewrite H3. reflexivity.
    + rewrite H1. rewrite ?andb_false_r. reflexivity.
    + rewrite H1, H2. reflexivity.
    + rewrite H1, H2. reflexivity.
  - destruct (String.eqb_spec key "sig") as [->|N].
    { destruct (dget string_dec "sig"%string (f_dataset _ _ fit)) eqn:E; [|discriminate].
      rewrite andb_false_r. intros Q; inversion Q; subst. apply found_sig. exact E. }
    rewrite andb_false_r.
    destruct (dget string_dec key (f_defdict _ _ fit)) as [v|] eqn:Ed.
    + destruct (b_dyn v) eqn:E1.
      { apply b_dyn_iff in E1. destruct (dget string_dec key (f_res_df _ _ fit)) eqn:E; [|discriminate].
        intros Q; inversion Q; subst. eapply found_dynamic; [exact N|exact Ed|tauto|tauto|exact E]. }
      destruct (b_const v) eqn:E2.
      { apply b_const_iff in E2. destruct (dget string_dec key (f_res_dict _ _ fit)) as [[|x r]|] eqn:E; try discriminate.
        intros Q; inversion Q; subst. eapply found_static; [exact N|exact Ed|tauto|tauto|exact E]. }
      destruct (b_fix v) eqn:E3; [discriminate|]. assert (A := b_cases v E1 E2 E3). apply b_aux_iff in A.
      destruct (dget string_dec key (f_dataset _ _ fit)) eqn:E; [|discriminate].
      intros Q; inversion Q; subst. eapply found_auxiliary; [exact N|exact Ed|tauto|tauto|exact E].
    + apply dget_lacks in Ed. destruct (dget string_dec key (f_dataset _ _ fit)) eqn:E.
      { rewrite andb_false_r. intros Q; inversion Q; subst. apply found_data; assumption. }
      apply dget_lacks in E. destruct (dget string_dec key (f_reader_arg _ _ fit)) eqn:Er.
      * intros Q; inversion Q; subst. apply found_argument; assumption.
      * apply dget_lacks in Er. intros Q; inversion Q; subst. apply found_nowhere; assumption.
Qed.

(** ** the export functions *)
Definition xs (fit : fitobj) (fs : xfuncs Col Val) (ps : list string) : list (string * Val) :=
  flat_map (fun kf => if inb string_dec (fst kf) ps then
                        match snd kf fit with Ok (XVal _ _ v) => [(fst kf, v)] | _ => [] end else []) fs.
Definition xc (fit : fitobj) (fs : xfuncs Col Val) (ps : list string) : list (string * Col) :=
  flat_map (fun kf => if inb string_dec (fst kf) ps then
                        match snd kf fit with Ok (XCol _ _ c) => [(fst kf, c)] | _ => [] end else []) fs.

Lemma in_xs fit fs ps k v : In (k, v) (xs fit fs ps) <->
  exists f, In (k, f) fs /\ In k ps /\ f fit = Ok (XVal _ _ v).
Proof.
  unfold xs. rewrite in_flat_map. split.
  - intros ([k' f] & Hi & H). cbn [fst snd] in H. destruct (inb string_dec k' ps) eqn:I; [|destruct H].
    apply inb_iff in I. destruct (f fit) as [[w|c]|] eqn:E; [|destruct H|destruct H].
    destruct H as [Q|[]]. inversion Q; subst. exists f. auto.
  - intros (f & Hi & Hp & E). exists (k, f). split; [exact Hi|]. cbn [fst snd].
    rewrite (proj2 (inb_iff string_dec k ps) Hp), E. left; reflexivity.
Qed.
Lemma in_xc fit fs ps k c : In (k, c) (xc fit fs ps) <->
  exists f, In (k, f) fs /\ In k ps /\ f fit = Ok (XCol _ _ c).
Proof.
  unfold xc. rewrite in_flat_map. split.
  - intros ([k' f] & Hi & H). cbn [fst snd] in H. destruct (inb string_dec k' ps) eqn:I; [|destruct H].
    apply inb_iff in I. destruct (f fit) as [[w|d]|] eqn:E; [destruct H| |destruct H].
    destruct H as [Q|[]]. inversion Q; subst. exists f. auto.
  - intros (f & Hi & Hp & E). exists (k, f). split; [exact Hi|]. cbn [fst snd].
    rewrite (proj2 (inb_iff string_dec k ps) Hp), E. left; reflexivity.
Qed.

Lemma in_keys {A} k (d : list (string * A)) : In k (keys d) <-> exists v, In (k, v) d.
Proof.
  unfold keys. rewrite in_map_iff. split.
  - intros ([a b] & <- & H). exists b. exact H.
  - intros [v H]. exists (k, v). auto.
Qed.

Lemma in_set_remove k key ps : In k (set_remove key ps) <-> In k ps /\ k <> key.
Proof.
  clear lower. unfold set_remove. rewrite filter_In, negb_true_iff, String.eqb_neq. tauto.
Qed.

Lemma inb_set_remove k key ps : k <> key -> inb string_dec k (set_remove key ps) = inb string_dec k ps.
Proof.
  intros N. destruct (inb string_dec k ps) eqn:E.
  - apply inb_iff. apply in_set_remove. apply inb_iff in E. auto.
  - apply inb_neg. rewrite in_set_remove. apply inb_neg in E. tauto.
Qed.

Lemma xs_remove fit fs key ps : ~ In key (keys fs) -> xs fit fs (set_remove key ps) = xs fit fs ps.
Proof.
  intros H. unfold xs. induction fs as [|[k f] fs IH]; [reflexivity|]. cbn [flat_map fst snd].
  rewrite inb_set_remove by (intros ->; apply H; left; reflexivity). rewrite IH; [reflexivity|].
  intros Q; apply H; right; exact Q.
Qed.
Lemma xc_remove fit fs key ps : ~ In key (keys fs) -> xc fit fs (set_remove key ps) = xc fit fs ps.
Proof.
  intros H. unfold xc. induction fs as [|[k f] fs IH]; [reflexivity|]. cbn [flat_map fst snd].
  rewrite inb_set_remove by (intros ->; apply H; left; reflexivity). rewrite IH; [reflexivity|].
  intros Q; apply H; right; exact Q.
Qed.

Lemma xs_keys fit fs ps k : In k (keys (xs fit fs ps)) -> In k (keys fs) /\ In k ps.
Proof.
  rewrite in_keys. intros [v H]. apply in_xs in H. destruct H as (f & H1 & H2 & _). split; [apply in_keys; eauto|exact H2].
Qed.
Lemma xc_keys fit fs ps k : In k (keys (xc fit fs ps)) -> In k (keys fs) /\ In k ps.
Proof.
  rewrite in_keys. intros [v H]. apply in_xc in H. destruct H as (f & H1 & H2 & _). split; [apply in_keys; eauto|exact H2].
Qed.

Lemma xs_nodup fit fs ps : NoDup (keys fs) -> NoDup (keys (xs fit fs ps)).
Proof.
  induction fs as [|[k f] fs IH]; intros Hn; [constructor|]. inversion Hn; subst. unfold xs. cbn [flat_map fst snd].
  fold (xs fit fs ps). destruct (inb string_dec k ps); [|apply IH; assumption].
  destruct (f fit) as [[v|c]|]; cbn [app]; try (apply IH; assumption).
  constructor; [|apply IH; assumption]. intros Q. apply xs_keys in Q. tauto.
Qed.
Lemma xc_nodup fit fs ps : NoDup (keys fs) -> NoDup (keys (xc fit fs ps)).
Proof.
  induction fs as [|[k f] fs IH]; intros Hn; [constructor|]. inversion Hn; subst. unfold xc. cbn [flat_map fst snd].
  fold (xc fit fs ps). destruct (inb string_dec k ps); [|apply IH; assumption].
  destruct (f fit) as [[v|c]|]; cbn [app]; try (apply IH; assumption).
  constructor; [|apply IH; assumption]. intros Q. apply xc_keys in Q. tauto.
Qed.

Definition without (l : list string) (ps : list string) : list string :=
  filter (fun k => negb (inb string_dec k l)) ps.
Lemma in_without k l ps : In k (without l ps) <-> In k ps /\ ~ In k l.
Proof. clear lower. unfold without. rewrite filter_In, negb_true_iff, inb_neg. tauto. Qed.
Lemma without_nodup l ps : NoDup ps -> NoDup (without l ps).
Proof. apply NoDup_filter. Qed.
Lemma without_cons key l ps : without (key :: l) ps = without l (set_remove key ps).
Proof.
  unfold without, set_remove. induction ps as [|k ps IH]; [reflexivity|]. cbn [filter].
  destruct (String.eqb_spec k key) as [->|N]; cbn [negb].
  - assert (E : inb string_dec key (key :: l) = true) by (apply inb_iff; left; reflexivity). rewrite E. exact IH.
  - assert (E : inb string_dec k (key :: l) = inb string_dec k l).
    { destruct (inb string_dec k l) eqn:Q.
      - apply inb_iff in Q. apply inb_iff. right; exact Q.
      - apply inb_neg. apply inb_neg in Q. intros [->|H]; [congruence|contradiction]. }
    cbn [filter]. rewrite E. destruct (inb string_dec k l); cbn [negb]; rewrite IH; reflexivity.
Qed.

Lemma keys_appd {A} (a b : list (string * A)) : keys (a ++ b) = keys a ++ keys b.
Proof. apply map_app. Qed.

Lemma run_xfuncs_ok fit fs : NoDup (keys fs) -> forall ps stat aux,
  (forall k f, In (k, f) fs -> In k ps -> exists r, f fit = Ok r) ->
  (forall k, In k (keys fs) -> In k ps -> ~ In k (keys stat) /\ ~ In k (keys aux)) ->
  run_xfuncs Col Val fit fs ps stat aux =
  (without (keys (xs fit fs ps)) ps, Ok (stat ++ xs fit fs ps, aux ++ xc fit fs ps)).
Proof.
  induction fs as [|[key f] fs IH]; intros Hn ps stat aux Hok Hfr.
  - cbn. unfold without. rewrite !app_nil_r. f_equal. clear. induction ps as [|k ps IH]; [reflexivity|]. cbn. rewrite <- IH at 1. reflexivity.
  - inversion Hn as [|? ? Hk Hn']. subst.
    cbn [run_xfuncs]. unfold xs, xc. cbn [flat_map fst snd]. fold (xs fit fs ps). fold (xc fit fs ps).
    destruct (inb string_dec key ps) eqn:I.
    + apply inb_iff in I. destruct (Hok key f (or_introl eq_refl) I) as [r Er]. rewrite Er.
      destruct (Hfr key (or_introl eq_refl) I) as [F1 F2].
      destruct r as [v|c].
      * rewrite IH; [|exact Hn'| |].
        -- rewrite (xs_remove fit fs key ps Hk), (xc_remove fit fs key ps Hk).
           rewrite (dset_fresh key v stat F1). cbn [app]. rewrite <- !app_assoc. cbn [app].
           cbn [keys map fst]. rewrite <- without_cons. reflexivity.
        -- intros k g Hg Hp. apply (Hok k g); [right; exact Hg|]. apply in_set_remove in Hp. tauto.
        -- intros k Hg Hp. apply in_set_remove in Hp. destruct Hp as [Hp Hne].
           destruct (Hfr k (or_intror Hg) Hp) as [G1 G2]. split; [|exact G2].
           rewrite (dset_fresh key v stat F1), keys_appd, in_app_iff. intros [Q|[Q|[]]]; [contradiction|cbn in Q; subst; contradiction].
      * rewrite IH; [|exact Hn'| |].
        -- rewrite (dset_fresh key c aux F2). cbn [app]. rewrite <- !app_assoc. reflexivity.
        -- intros k g Hg Hp. apply (Hok k g); [right; exact Hg|exact Hp].
        -- intros k Hg Hp. destruct (Hfr k (or_intror Hg) Hp) as [G1 G2]. split; [exact G1|].
           rewrite (dset_fresh key c aux F2), keys_appd, in_app_iff. intros [Q|[Q|[]]]; [contradiction|].
           cbn in Q. subst. contradiction.
    + rewrite IH; [reflexivity|exact Hn'| |].
      * intros k g Hg Hp. apply (Hok k g); [right; exact Hg|exact Hp].
      * intros k Hg Hp. apply Hfr; [right; exact Hg|exact Hp].
Qed.

Lemma filter_all {A} (p : A -> bool) l : (forall a, In a l -> p a = true) -> filter p l = l.
Proof.
  induction l as [|a l IH]; intros H; [reflexivity|]. cbn [filter]. rewrite (H a (or_introl eq_refl)).
  rewrite IH; [reflexivity|]. intros x Hx. apply H. right; exact Hx.
Qed.
Lemma filter_none {A} (p : A -> bool) l : (forall a, In a l -> p a = false) -> filter p l = [].
Proof.
  induction l as [|a l IH]; intros H; [reflexivity|]. cbn [filter]. rewrite (H a (or_introl eq_refl)).
  apply IH. intros x Hx. apply H. right; exact Hx.
Qed.
Lemma nin_t k l : ~ In k l -> negb (inb string_dec k l) = true.
Proof. intros H. apply negb_true_iff, inb_neg, H. Qed.
Lemma nin_f k l : In k l -> negb (inb string_dec k l) = false.
Proof. intros H. apply negb_false_iff, inb_iff, H. Qed.

(** the parameters that are left for the default extraction *)
Lemma rest_params ps mk c : (forall k, In k mk -> ~ In k ps) -> (forall k, In k c -> In k ps) ->
  sym_diff (sym_diff ps (mk ++ c)) mk = without c ps.
Proof.
  intros Hm Hc.
  assert (E1 : sym_diff ps (mk ++ c) = without c ps ++ mk).
  { unfold sym_diff. f_equal.
    - unfold without. apply filter_ext_in. intros k Hk. f_equal.
      destruct (inb string_dec k c) eqn:Q.
      + apply inb_iff in Q. apply inb_iff. apply in_or_app. right; exact Q.
      + apply inb_neg in Q. apply inb_neg. rewrite in_app_iff. intros [H|H]; [exact (Hm k H Hk)|contradiction].
    - rewrite filter_app, (filter_all _ mk), (filter_none _ c), app_nil_r; [reflexivity| |];
        intros k Hk; [apply nin_f, Hc, Hk|apply nin_t, Hm, Hk]. }
  rewrite E1. unfold sym_diff. rewrite filter_app.
  rewrite (filter_all _ (without c ps)), !(filter_none _ mk), !app_nil_r; [reflexivity| | |].
  - intros k Hk. apply nin_f. apply in_or_app. right; exact Hk.
  - intros k Hk. apply nin_f, Hk.
  - intros k Hk. apply nin_t. intros Q. apply in_without in Hk. exact (Hm k Q (proj1 Hk)).
Qed.

Lemma nodup_app2 {A} (a b : list A) : NoDup a -> NoDup b -> (forall x, In x a -> ~ In x b) -> NoDup (a ++ b).
Proof.
  intros Ha Hb H. induction Ha as [|x a Hx Ha IH]; [exact Hb|]. cbn [app]. constructor.
  - rewrite in_app_iff. intros [Q|Q]; [contradiction|]. apply (H x); [left; reflexivity|exact Q].
  - apply IH. intros y Hy. apply H. right; exact Hy.
Qed.

Lemma in_ser f ks key c : In (key, c) (flat_map (ser f) ks) <-> In key ks /\ f key = Some (Series c).
Proof.
  rewrite in_flat_map. unfold ser. split.
  - intros (k & Hk & H). destruct (f k) as [[d|v|]|] eqn:E; try destruct H as [Q|[]]; try destruct H.
    inversion Q; subst. auto.
  - intros [Hk E]. exists key. split; [exact Hk|]. rewrite E. left; reflexivity.
Qed.
Lemma in_sgl f ks key v : In (key, v) (flat_map (sgl f) ks) <-> In key ks /\ f key = Some (Single v).
Proof.
  rewrite in_flat_map. unfold sgl. split.
  - intros (k & Hk & H). destruct (f k) as [[d|w|]|] eqn:E; try destruct H as [Q|[]]; try destruct H.
    inversion Q; subst. auto.
  - intros [Hk E]. exists key. split; [exact Hk|]. rewrite E. left; reflexivity.
Qed.
Lemma nodup_ser f ks : NoDup ks -> NoDup (keys (flat_map (ser f) ks)).
Proof.
  induction 1 as [|k ks Hk H IH]; [constructor|]. cbn [flat_map]. rewrite keys_appd. apply nodup_app2; [|exact IH|].
  - unfold ser. destruct (f k) as [[]|]; cbn; repeat constructor; tauto.
  - intros x Hx. rewrite in_keys. intros [c Q]. apply in_ser in Q. destruct Q as [Q _].
    unfold ser in Hx. destruct (f k) as [[]|]; cbn in Hx; try tauto. destruct Hx as [<-|[]]. contradiction.
Qed.
Lemma nodup_sgl f ks : NoDup ks -> NoDup (keys (flat_map (sgl f) ks)).
Proof.
  induction 1 as [|k ks Hk H IH]; [constructor|]. cbn [flat_map]. rewrite keys_appd. apply nodup_app2; [|exact IH|].
  - unfold sgl. destruct (f k) as [[]|]; cbn; repeat constructor; tauto.
  - intros x Hx. rewrite in_keys. intros [c Q]. apply in_sgl in Q. destruct Q as [Q _].
    unfold sgl in Hx. destruct (f k) as [[]|]; cbn in Hx; try tauto. destruct Hx as [<-|[]]. contradiction.
Qed.

(** the columns of the model *)
Lemma model_columns_ok fit mk : set_indexer = true \/ mk = [] ->
  (forall k, In k mk -> exists m c, f_model _ _ fit = Ok m /\ has k c m) ->
  exists cols, model_columns Col Val set_indexer fit mk = Ok cols /\ keys cols = mk /\
    forall k c, In (k, c) cols <-> In k mk /\ exists m, f_model _ _ fit = Ok m /\ has k c m.
Proof.
  intros Hs Hm. destruct mk as [|k0 mk0] eqn:Emk.
  { exists []. cbn. repeat split; tauto. }
  destruct Hs as [Hs|Hs]; [|discriminate]. rewrite <- Emk in *.
  destruct (Hm k0) as (m & c0 & Em & _); [rewrite Emk; left; reflexivity|].
  assert (X : forall l, (forall k, In k l -> exists c, has k c m) ->
     exists cols, mapM (fun k => do c <- item k m; Ok (k, c)) l = Ok cols /\ keys cols = l /\
       forall k c, In (k, c) cols <-> In k l /\ has k c m).
  { clear. induction l as [|k l IH]; intros H; [exists []; cbn; repeat split; tauto|].
    destruct (H k (or_introl eq_refl)) as [c Hc]. destruct IH as (cols & E & K & I); [intros j Hj; apply H; right; exact Hj|].
    exists ((k, c) :: cols). cbn [mapM]. unfold item at 1. unfold has in Hc. rewrite Hc. cbn [bind]. rewrite E. cbn [bind].
    split; [reflexivity|]. split; [exact (f_equal (cons k) K)|]. intros j d. cbn [In]. rewrite I. unfold has. split.
    - intros [Q|Q]; [inversion Q; subst; auto|tauto].
    - intros [[Q|Q] D]; [left; subst j; rewrite Hc in D; injection D as ->; reflexivity|tauto]. }
  destruct (X mk) as (cols & E & K & I).
  { intros k Hk. destruct (Hm k Hk) as (m' & c & E' & Hc). replace m with m' by congruence. eauto. }
  exists cols. unfold model_columns. rewrite Emk at 1. rewrite Em, Hs. cbn [bind]. split; [exact E|]. split; [exact K|].
  intros k c. rewrite I. split.
  - intros [A B]. split; [exact A|]. exists m. auto.
  - intros [A (m' & B & D)]. split; [exact A|]. congruence.
Qed.

(** one fit *)
Lemma hdf_export_holds mk metrics mvals fs ps fit :
  NoDup (keys fs) -> NoDup (keys (f_defdict _ _ fit)) -> NoDup ps -> NoDup mk ->
  (forall k, In k mk -> In k contributions) -> (forall k, In k ps -> ~ In k contributions) ->
  set_indexer = true \/ mk = [] ->
  (forall k, In k ps \/ In k mk -> exists p, part_of _ _ fs fit k p) ->
  mapM (fun nm => do v <- metric_value Col Val lower fit fs (fst nm) (snd nm); Ok (fst nm, v)) metrics = Ok mvals ->
  exists t, hdf_export Col Val to_dB to_degree set_indexer lower mk metrics fs false false ps fit =
    (without (keys (xs fit fs ps)) ps, Ok t) /\
    holds _ _ fs fit (fun k => In k ps \/ In k mk) t /\ t_metrics _ _ t = mvals.
Proof.
  intros Hfs Hdd Hps Hmk Hmc Hpc Hset Hpart Hmet.
  destruct (model_columns_ok fit mk Hset) as (cols & Ecols & Kcols & Icols).
  { intros k Hk. destruct (Hpart k (or_intror Hk)) as [p Hp].
    destruct Hp as [m c _ Em Hc|f v N|f c N|p N]; try (exfalso; apply N, Hmc, Hk). eauto. }
  assert (Hdisj : forall k, In k mk -> ~ In k ps) by (intros k Hk Q; exact (Hpc k Q (Hmc k Hk))).
  assert (Hfun : forall k f, In (k, f) fs -> In k ps -> exists r, f fit = Ok r).
  { intros k f Hf Hk. apply (in_dget _ _ _ Hfs) in Hf. destruct (Hpart k (or_introl Hk)) as [p Hp].
    destruct Hp as [m c N|g v N Hg E|g c N Hg E|p N L _].
    - exfalso. exact (Hpc k Hk N).
    - unfold has in Hg. exists (XVal _ _ v). congruence.
    - unfold has in Hg. exists (XCol _ _ c). congruence.
    - apply dget_lacks in L. congruence. }
  set (X := xs fit fs ps). set (C := xc fit fs ps). set (ps' := without (keys X) ps).
  assert (Rx : run_xfuncs Col Val fit fs ps [] cols = (ps', Ok (X, cols ++ C))).
  { unfold ps', X, C. rewrite (run_xfuncs_ok fit fs Hfs ps [] cols Hfun); [reflexivity|].
    intros k _ Hk. split; [intros []|]. rewrite Kcols. intros Q. exact (Hdisj k Q Hk). }
  assert (HXC : forall k, In k (keys X) -> ~ In k (keys C)).
  { intros k H1 H2. apply in_keys in H1, H2. destruct H1 as [v H1], H2 as [c H2].
    apply in_xs in H1. apply in_xc in H2. destruct H1 as (f & F1 & _ & E1), H2 as (g & G1 & _ & E2).
    apply (in_dget _ _ _ Hfs) in F1, G1. congruence. }
  assert (HCps : forall k, In k (keys C) -> In k ps').
  { intros k Hk. apply in_without. split; [apply (xc_keys fit fs ps k Hk)|]. intros Q. exact (HXC k Q Hk). }
  set (rest := without (keys C) ps').
  assert (Erest : sym_diff (sym_diff ps' (keys (cols ++ C))) mk = rest).
  { rewrite keys_appd, Kcols. apply rest_params; [|exact HCps].
    intros k Hk Q. apply in_without in Q. exact (Hdisj k Hk (proj1 Q)). }
  assert (Irest : forall k, In k rest <-> In k ps /\ ~ In k (keys fs)).
  { intros k. unfold rest, ps'. rewrite !in_without. split.
    - intros [[H1 H2] H3]. split; [exact H1|]. intros Q. apply in_keys in Q. destruct Q as [f Hf].
      destruct (Hfun k f Hf H1) as [[v|c] E].
      + apply H2, in_keys. exists v. apply in_xs. eauto.
      + apply H3, in_keys. exists c. apply in_xc. eauto.
    - intros [H1 H2]. split; [split; [exact H1|]|].
      + intros Q. apply xs_keys in Q. tauto.
      + intros Q. apply xc_keys in Q. tauto. }
  assert (Hsrc : forall k, In k rest -> src false false fit k <> None).
  { intros k Hk. apply Irest in Hk. destruct Hk as [Hk Hnf]. destruct (Hpart k (or_introl Hk)) as [p Hp].
    destruct Hp as [m c N|g v N Hg E|g c N Hg E|p N L F].
    - exfalso. exact (Hpc k Hk N).
    - exfalso. apply Hnf, in_keys. exists g. apply in_dget; assumption.
    - exfalso. apply Hnf, in_keys. exists g. apply in_dget; assumption.
    - apply found_iff in F. congruence. }
  assert (Hrn : NoDup rest) by (unfold rest, ps'; apply without_nodup, without_nodup, Hps).
  exists (mktables _ _ (flat_map (ser (src false false fit)) rest ++ cols ++ C)
            (X ++ flat_map (sgl (src false false fit)) rest) mvals).
  split; [|split; [|reflexivity]].
  - unfold hdf_export. rewrite Ecols, Rx. f_equal. cbn [bind]. rewrite Erest. unfold postprocess_getparams.
    rewrite (get_params_src fit false false Hdd rest [] X Hrn); [|intros k Hk Q; apply Irest in Hk; apply xs_keys in Q; tauto|exact Hsrc].
    cbn [bind fst snd app]. rewrite Hmet. reflexivity.
  - split; [|split; [|split]].
    + cbn [t_dynamic]. rewrite !keys_appd. apply nodup_app2; [apply nodup_ser, Hrn| |].
      * apply nodup_app2; [rewrite Kcols; exact Hmk|apply xc_nodup, Hfs|].
        intros k H1 H2. rewrite Kcols in H1. apply xc_keys in H2. exact (Hdisj k H1 (proj2 H2)).
      * intros k H1 H2. apply in_keys in H1. destruct H1 as [c H1]. apply in_ser in H1. destruct H1 as [H1 _].
        apply Irest in H1. rewrite in_app_iff, Kcols in H2. destruct H2 as [H2|H2].
        -- exact (Hdisj k H2 (proj1 H1)).
        -- apply xc_keys in H2. tauto.
    + cbn [t_static]. rewrite keys_appd. apply nodup_app2; [apply xs_nodup, Hfs|apply nodup_sgl, Hrn|].
      intros k H1 H2. apply xs_keys in H1. apply in_keys in H2. destruct H2 as [c H2]. apply in_sgl in H2.
      destruct H2 as [H2 _]. apply Irest in H2. tauto.
    + intros key c. cbn [t_dynamic]. rewrite !in_app_iff, in_ser, Icols. unfold C. rewrite in_xc. split.
      * intros [[H1 H2]|[[H1 (m & H2 & H3)]|(f & H1 & H2 & H3)]].
        -- apply Irest in H1. destruct H1 as [H1 H4]. split; [left; exact H1|].
           apply part_found; [exact (Hpc key H1)|exact H4|apply found_iff, H2].
        -- split; [right; exact H1|]. eapply part_model; [apply Hmc, H1|exact H2|exact H3].
        -- split; [left; exact H2|]. eapply part_fun_series; [exact (Hpc key H2)|apply in_dget; eassumption|exact H3].
      * intros [Hin Hp]. clear Kcols. inversion Hp as [m d N Em Hm|f v N Hf E|f d N Hf E|p N L F]; subst.
        -- right; left. assert (Hk : In key mk) by (destruct Hin as [Q|Q]; [destruct (Hpc key Q N)|exact Q]).
           split; [exact Hk|]. eauto.
        -- right; right. exists f. split; [apply in_dget; assumption|].
           split; [|exact E]. destruct Hin as [Q|Q]; [exact Q|destruct N; apply Hmc, Q].
        -- left. split; [|apply found_iff, F]. apply Irest.
           split; [|exact L]. destruct Hin as [Q|Q]; [exact Q|destruct N; apply Hmc, Q].
    + intros key v. cbn [t_static]. rewrite !in_app_iff, in_sgl. unfold X. rewrite in_xs. split.
      * intros [(f & H1 & H2 & H3)|[H1 H2]].
        -- split; [left; exact H2|]. eapply part_fun_single; [exact (Hpc key H2)|apply in_dget; eassumption|exact H3].
        -- apply Irest in H1. destruct H1 as [H1 H4]. split; [left; exact H1|].
           apply part_found; [exact (Hpc key H1)|exact H4|apply found_iff, H2].
      * intros [Hin Hp]. clear Kcols. inversion Hp as [m d N Em Hm|f w N Hf E|f d N Hf E|p N L F]; subst.
        -- left. exists f. split; [apply in_dget; assumption|].
           split; [|exact E]. destruct Hin as [Q|Q]; [exact Q|destruct N; apply Hmc, Q].
        -- right. split; [|apply found_iff, F]. apply Irest.
           split; [|exact L]. destruct Hin as [Q|Q]; [exact Q|destruct N; apply Hmc, Q].
Qed.

(** ** a key without export function *)
Lemma run_xfuncs_other fit key fs : ~ In key (keys fs) -> forall ps stat aux,
  (In key (fst (run_xfuncs Col Val fit fs ps stat aux)) <-> In key ps) /\
  (forall st' aux', snd (run_xfuncs Col Val fit fs ps stat aux) = Ok (st', aux') -> (In key (keys aux') <-> In key (keys aux))).
Proof.
  induction fs as [|[k f] fs IH]; intros Hk ps stat aux.
  - cbn. split; [tauto|]. intros st' aux' Q. inversion Q; subst. tauto.
  - assert (Hk' : ~ In key (keys fs)) by (intros Q; apply Hk; right; exact Q).
    assert (N : key <> k) by (intros ->; apply Hk; left; reflexivity).
    cbn [run_xfuncs]. destruct (inb string_dec k ps); [|apply IH; exact Hk'].
    destruct (f fit) as [[v|c]|e].
    + destruct (IH Hk' (set_remove k ps) (dset string_dec k v stat) aux) as [A B]. split; [|exact B].
      rewrite A, in_set_remove. tauto.
    + destruct (IH Hk' ps stat (dset string_dec k c aux)) as [A B]. split; [exact A|].
      intros st' aux' Q. rewrite (B st' aux' Q). rewrite !(dget_in_keys string_dec).
      rewrite dget_dset_other by congruence. tauto.
    + cbn. split; [tauto|discriminate].
Qed.

(** a key that is not asked for (any more) *)
Lemma run_xfuncs_absent fit key fs : forall ps stat aux, ~ In key ps ->
  ~ In key (fst (run_xfuncs Col Val fit fs ps stat aux)) /\
  (forall st' aux', snd (run_xfuncs Col Val fit fs ps stat aux) = Ok (st', aux') ->
     (In key (keys aux') <-> In key (keys aux)) /\ (In key (keys st') <-> In key (keys stat))).
Proof.
  clear lower to_dB to_degree.
  induction fs as [|[k f] fs IH]; intros ps stat aux Hk.
  - cbn. split; [tauto|]. intros st' aux' Q. inversion Q; subst. tauto.
  - cbn [run_xfuncs]. destruct (inb string_dec k ps) eqn:I; [|apply IH; exact Hk].
    apply inb_iff in I. assert (N : key <> k) by (intros ->; contradiction).
    destruct (f fit) as [[v|c]|e].
    + destruct (IH (set_remove k ps) (dset string_dec k v stat) aux) as [A B]; [rewrite in_set_remove; tauto|].
      split; [exact A|]. intros st' aux' Q. destruct (B st' aux' Q) as [B1 B2]. split; [exact B1|]. rewrite B2.
      rewrite !(dget_in_keys string_dec). rewrite dget_dset_other by congruence. tauto.
    + destruct (IH ps stat (dset string_dec k c aux) Hk) as [A B]. split; [exact A|].
      intros st' aux' Q. destruct (B st' aux' Q) as [B1 B2]. split; [|exact B2]. rewrite B1.
      rewrite !(dget_in_keys string_dec). rewrite dget_dset_other by congruence. tauto.
    + cbn. split; [tauto|discriminate].
Qed.

Lemma step_absent fit sd ideg key k l l' : key <> k -> gstep fit sd ideg k l = Ok l' ->
  ~ In key (keys (fst l)) -> ~ In key (keys (snd l)) -> ~ In key (keys (fst l')) /\ ~ In key (keys (snd l')).
Proof.
  intros N E H1 H2. destruct l as [dyn stat]. cbn [fst snd] in *.
  assert (A : forall c : Col, ~ In key (keys (dyn ++ [(k, c)])) /\ ~ In key (keys stat)).
  { intros c. split; [|exact H2]. rewrite keys_appd, in_app_iff. cbn. intuition congruence. }
  assert (B : forall v : Val, ~ In key (keys dyn) /\ ~ In key (keys (dset string_dec k v stat))).
  { intros v. split; [exact H1|]. rewrite (dget_in_keys string_dec), dget_dset_other by congruence.
    rewrite <- (dget_in_keys string_dec). exact H2. }
  unfold get_param_step in E.
  repeat match type of E with
  | (if ?b then _ else _) = _ => destruct b
  | (match ?x with Some _ => _ | None => _ end) = _ => destruct x
  | bind (item ?a ?b) _ = _ => unfold item in E
  | bind (match ?x with Some _ => _ | None => _ end) _ = _ => destruct x; cbn [bind] in E
  | (match ?x with [] => _ | _ :: _ => _ end) = _ => destruct x
  | Ok _ = Ok _ => inversion E; subst; clear E
  | Err _ = Ok _ => discriminate E
  end; cbn [fst snd]; auto.
Qed.

Lemma get_params_absent fit sd ideg key ks : ~ In key ks -> forall l l', gparams fit sd ideg ks l = Ok l' ->
  ~ In key (keys (fst l)) -> ~ In key (keys (snd l)) -> ~ In key (keys (fst l')) /\ ~ In key (keys (snd l')).
Proof.
  induction ks as [|k ks IH]; intros Hk l l' E H1 H2.
  - inversion E; subst. auto.
  - cbn [get_params] in E. destruct (gstep fit sd ideg k l) as [l1|] eqn:E1; [|discriminate]. cbn [bind] in E.
    destruct (step_absent fit sd ideg key k l l1) as [A B]; [intros ->; apply Hk; left; reflexivity|exact E1|exact H1|exact H2|].
    eapply IH; [intros Q; apply Hk; right; exact Q|exact E|exact A|exact B].
Qed.

Lemma model_columns_keys fit mk cols : model_columns Col Val set_indexer fit mk = Ok cols -> keys cols = mk.
Proof.
  unfold model_columns. destruct mk as [|k0 mk0]; [intros Q; inversion Q; reflexivity|].
  destruct (f_model _ _ fit) as [m|]; cbn [bind]; [|discriminate]. destruct set_indexer; [|discriminate].
  generalize (k0 :: mk0). clear. intros l. revert cols. induction l as [|k l IH]; intros cols E; [inversion E; reflexivity|].
  cbn [mapM] in E. unfold item at 1 in E. destruct (dget string_dec k m); cbn [bind] in E; [|discriminate].
  destruct (mapM _ l) eqn:El; cbn [bind] in E; [|discriminate]. inversion E; subst.
  exact (f_equal (cons k) (IH _ eq_refl)).
Qed.

Notation hexport := (hdf_export Col Val to_dB to_degree set_indexer lower).

Lemma in_sym_diff k a b : In k (sym_diff a b) -> In k a \/ In k b.
Proof. unfold sym_diff. rewrite in_app_iff, !filter_In. tauto. Qed.
Lemma in_sym_diff_l k a b : In k a -> ~ In k b -> In k (sym_diff a b).
Proof. intros Ha Hb. unfold sym_diff. rewrite in_app_iff. left. apply filter_In. split; [exact Ha|]. apply nin_t, Hb. Qed.

Lemma hdf_absent mk metrics fs sd ideg ps fit key : ~ In key ps -> ~ In key mk ->
  ~ In key (fst (hexport mk metrics fs sd ideg ps fit)) /\
  (forall t, snd (hexport mk metrics fs sd ideg ps fit) = Ok t -> absent _ _ key t).
Proof.
  intros Hp Hm. unfold hdf_export. destruct (model_columns Col Val set_indexer fit mk) as [aux0|] eqn:Ec.
  2: { cbn. split; [exact Hp|discriminate]. }
  assert (K := model_columns_keys fit mk aux0 Ec).
  destruct (run_xfuncs_absent fit key fs ps [] aux0 Hp) as [A B].
  destruct (run_xfuncs Col Val fit fs ps [] aux0) as [ps' r]. cbn [fst snd] in *. split; [exact A|].
  intros t Et. destruct r as [[stat aux]|]; cbn [bind] in Et; [|discriminate].
  destruct (B stat aux eq_refl) as [B1 B2]. rewrite K in B1. cbn in B2.
  unfold postprocess_getparams in Et.
  destruct (gparams fit sd ideg (sym_diff (sym_diff ps' (keys aux)) mk) ([], stat)) as [l|] eqn:Eg; cbn [bind] in Et; [|discriminate].
  destruct (mapM _ metrics); cbn [bind] in Et; [|discriminate]. inversion Et; subst.
  apply (get_params_absent fit sd ideg key) in Eg.
  - unfold absent. cbn [t_dynamic t_static fst snd]. rewrite keys_appd, in_app_iff. tauto.
  - intros Q. apply in_sym_diff in Q. destruct Q as [Q|Q]; [apply in_sym_diff in Q|]; tauto.
  - intros [].
  - cbn [snd]. tauto.
Qed.

Notation efile := (export_file Col Val to_dB to_degree set_indexer lower).
Notation efiles := (export_files Col Val to_dB to_degree set_indexer lower).

Lemma file_absent mk metrics fs sd ideg key : ~ In key mk -> forall file ps, ~ In key ps ->
  ~ In key (fst (efile mk metrics fs sd ideg ps file)) /\
  (forall ts, snd (efile mk metrics fs sd ideg ps file) = Ok ts -> Forall (fun nt => absent _ _ key (snd nt)) ts).
Proof.
  intros Hm. induction file as [|[n fit] file IH]; intros ps Hp; cbn [export_file].
  - split; [exact Hp|]. intros ts Q. inversion Q; constructor.
  - destruct (hdf_absent mk metrics fs sd ideg ps fit key Hp Hm) as [A B].
    destruct (hexport mk metrics fs sd ideg ps fit) as [ps1 t]. cbn [fst snd] in *.
    destruct t as [t|e]; [|cbn; split; [exact A|discriminate]].
    destruct (IH ps1 A) as [A2 B2]. destruct (efile mk metrics fs sd ideg ps1 file) as [ps2 r]. cbn [fst snd] in *.
    split; [exact A2|]. intros ts Q. destruct r as [ts'|]; cbn [bind] in Q; [|discriminate]. inversion Q; subst.
    constructor; [apply B; reflexivity|apply B2; reflexivity].
Qed.

Lemma files_absent mk metrics fs sd ideg key : ~ In key mk -> forall files ps, ~ In key ps ->
  Forall (fun out => forall ts, out = Ok ts -> Forall (fun nt => absent _ _ key (snd nt)) ts) (efiles mk metrics fs sd ideg ps files).
Proof.
  intros Hm. induction files as [|file files IH]; intros ps Hp; cbn [export_files]; [constructor|].
  destruct (file_absent mk metrics fs sd ideg key Hm file ps Hp) as [A B].
  destruct (efile mk metrics fs sd ideg ps file) as [ps1 out]. cbn [fst snd] in *.
  constructor; [exact B|apply IH; exact A].
Qed.

(** ** a constant *)
Lemma hdf_constant mk metrics fs sd ideg ps fit key : In key ps -> ~ In key mk -> ~ In key (keys fs) ->
  NoDup (keys (f_defdict _ _ fit)) -> is_constant _ _ fit key -> ideg = false ->
  exists e, snd (hexport mk metrics fs sd ideg ps fit) = Err e.
Proof.
  intros Hp Hm Hf Hd Hc Hi. unfold hdf_export. destruct (model_columns Col Val set_indexer fit mk) as [aux0|e] eqn:Ec.
  2: { exists e. reflexivity. }
  assert (K := model_columns_keys fit mk aux0 Ec).
  destruct (run_xfuncs_other fit key fs Hf ps [] aux0) as [A B].
  destruct (run_xfuncs Col Val fit fs ps [] aux0) as [ps' r]. cbn [fst snd] in *.
  destruct r as [[stat aux]|e]; cbn [bind]; [|exists e; reflexivity].
  specialize (B stat aux eq_refl). rewrite K in B. unfold postprocess_getparams.
  destruct (get_params_bad fit sd ideg Hd (sym_diff (sym_diff ps' (keys aux)) mk) ([], stat) key) as [e E].
  - apply in_sym_diff_l; [|exact Hm]. apply in_sym_diff_l; [apply A, Hp|]. tauto.
  - assert (S := step_src fit sd ideg key [] [] Hd). destruct (src sd ideg fit key); [|reflexivity].
    rewrite step_constant in S; [discriminate|exact Hd|exact Hc|auto].
  - exists e. rewrite E. reflexivity.
Qed.

(** ** no function returns a number: the request stays as it is *)
Lemma xs_none fit fs ps : NoDup (keys fs) -> (forall k, In k ps -> ~ In k contributions) ->
  (forall k, In k ps -> ~ scalar _ _ fs fit k) -> xs fit fs ps = [].
Proof.
  intros Hn Hc Hs. destruct (xs fit fs ps) as [|[k v] r] eqn:E; [reflexivity|]. exfalso.
  assert (I : In (k, v) (xs fit fs ps)) by (rewrite E; left; reflexivity). apply in_xs in I.
  destruct I as (f & H1 & H2 & H3). apply (Hs k H2). split; [apply Hc, H2|]. exists f, v.
  split; [apply in_dget; assumption|exact H3].
Qed.
Lemma without_nil ps : without [] ps = ps.
Proof. apply filter_all. reflexivity. Qed.

(** the split of the request *)
Lemma request ps0 : let ps := nodup string_dec ps0 in
  let mk := filter (fun k => inb string_dec k ["tot"; "surf"; "vol"; "inter"]%string) ps in
  sym_diff ps mk = without contributions ps.
Proof.
  clear lower. intros ps mk. unfold sym_diff. rewrite (filter_none _ mk), app_nil_r.
  - unfold without. apply filter_ext_in. intros k Hk. f_equal. unfold mk.
    destruct (inb string_dec k contributions) eqn:E.
    + apply inb_iff. apply filter_In. split; [exact Hk|exact E].
    + apply inb_neg. rewrite filter_In. intros [_ Q]. unfold contributions in E. congruence.
  - intros k Hk. apply nin_f. unfold mk in Hk. apply filter_In in Hk. tauto.
Qed.

Lemma metric_mapM fit fs metrics :
  (forall n m, In (n, m) metrics -> exists v, metric_value Col Val lower fit fs n m = Ok v) ->
  exists mvals, mapM (fun nm => do v <- metric_value Col Val lower fit fs (fst nm) (snd nm); Ok (fst nm, v)) metrics = Ok mvals.
Proof.
  induction metrics as [|[n m] l IH]; intros H; [exists []; reflexivity|].
  destruct (H n m (or_introl eq_refl)) as [v E]. destruct IH as [mv Em]; [intros a b Hi; apply H; right; exact Hi|].
  exists ((n, v) :: mv). cbn [mapM fst snd]. rewrite E. cbn [bind]. rewrite Em. reflexivity.
Qed.

Lemma hdf_metrics mk metrics fs sd ideg ps fit t : snd (hexport mk metrics fs sd ideg ps fit) = Ok t ->
  mapM (fun nm => do v <- metric_value Col Val lower fit fs (fst nm) (snd nm); Ok (fst nm, v)) metrics = Ok (t_metrics _ _ t).
Proof.
  unfold hdf_export. destruct (model_columns Col Val set_indexer fit mk) as [aux0|]; [|discriminate].
  destruct (run_xfuncs Col Val fit fs ps [] aux0) as [ps' r]. cbn [snd].
  destruct r as [[stat aux]|]; cbn [bind]; [|discriminate].
  destruct (postprocess_getparams _ _ _ _ _ _ _ _ _ _); cbn [bind]; [|discriminate].
  destruct (mapM _ metrics); cbn [bind]; [|discriminate]. intros Q; inversion Q; reflexivity.
Qed.

(** what holds for the tables of any single export holds for all that is written *)
Lemma files_all (P : fitobj -> tables Col Val -> Prop) mk metrics fs sd ideg :
  (forall ps fit t, snd (hexport mk metrics fs sd ideg ps fit) = Ok t -> P fit t) ->
  forall files ps, exported_all _ _ P files (efiles mk metrics fs sd ideg ps files).
Proof.
  intros H. assert (F : forall file ps ts, snd (efile mk metrics fs sd ideg ps file) = Ok ts ->
     Forall2 (fun nf nt => fst nt = fst nf /\ P (snd nf) (snd nt)) file ts).
  { induction file as [|[n fit] file IH]; intros ps ts; cbn [export_file].
    - intros Q; inversion Q; constructor.
    - assert (Hf := H ps fit). destruct (hexport mk metrics fs sd ideg ps fit) as [ps1 t]. cbn [fst snd] in *.
      destruct t as [t|e]; [|discriminate]. assert (IH1 := IH ps1).
      destruct (efile mk metrics fs sd ideg ps1 file) as [ps2 r]. cbn [fst snd] in *.
      destruct r as [ts'|]; cbn [bind]; [|discriminate]. intros Q; inversion Q; subst.
      constructor; [split; [reflexivity|apply Hf; reflexivity]|apply IH1; reflexivity]. }
  induction files as [|file files IH]; intros ps; cbn [export_files]; [constructor|].
  assert (Ff := F file ps). destruct (efile mk metrics fs sd ideg ps file) as [ps1 out]. cbn [snd] in Ff.
  constructor; [exact Ff|apply IH].
Qed.
End Export.
