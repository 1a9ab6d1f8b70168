(** C162: the groups of observations of a stored fit. *)
From Coq Require Import ZArith Arith Bool Ascii String List Lia.
From Verif Require Import Base Base_Proofs Str_Model Str_Proofs Fit_Model Hds_Model Hds_Spec.
Import ListNotations.
Local Open Scope string_scope.
Local Open Scope list_scope.

Lemma in_fitted : forall d k b v, In (k, (b, v)) (fitted d) <-> In (k, (true, v)) d /\ b = true.
Proof.
  intros d k b v. unfold fitted. rewrite filter_In. cbn [fst snd]. split.
  - intros [H ->]. auto.
  - intros [H ->]. auto.
Qed.
Lemma sapp_inj : forall s a b, (a ++ s)%string = (b ++ s)%string -> a = b.
Proof.
  intros s. induction a as [|x a IH]; intros [|y b] H.
  - reflexivity.
  - exfalso. assert (L : String.length s = String.length (String y b ++ s)) by (rewrite <- H; reflexivity).
    rewrite slength_app in L. cbn [String.length] in L. lia.
  - exfalso. assert (L : String.length (String x a ++ s) = String.length s) by (rewrite H; reflexivity).
    rewrite slength_app in L. cbn [String.length] in L. lia.
  - cbn in H. injection H as -> H. f_equal. apply IH. exact H.
Qed.
Lemma mapM_all : forall {A B} (f : A -> res B) l r, mapM f l = Ok r -> forall x, In x l -> exists y, f x = Ok y.
Proof.
  induction l as [|a l IH]; intros r H x X; [destruct X|].
  cbn [mapM] in H. destruct (f a) as [y|e] eqn:E; cbn [bind] in H; [|discriminate].
  destruct (mapM f l) as [ys|e] eqn:E2; cbn [bind] in H; [|discriminate].
  destruct X as [->|X]; [exists y; exact E|]. apply (IH ys eq_refl x X).
Qed.
Lemma mapM_ext_in : forall {A B} (f g : A -> res B) l, (forall x, In x l -> f x = g x) -> mapM f l = mapM g l.
Proof.
  induction l as [|a l IH]; intros H; [reflexivity|]. cbn [mapM]. rewrite (H a (or_introl eq_refl)).
  rewrite IH by (intros x X; apply H; right; exact X). reflexivity.
Qed.
Lemma mapM_len : forall {A B} (f : A -> res B) l r, mapM f l = Ok r -> List.length r = List.length l.
Proof.
  induction l as [|a l IH]; intros r H; cbn [mapM] in H.
  - injection H as <-. reflexivity.
  - destruct (f a) as [y|e]; cbn [bind] in H; [|discriminate].
    destruct (mapM f l) as [ys|e] eqn:E; cbn [bind] in H; [|discriminate]. injection H as <-. cbn. f_equal. apply IH. reflexivity.
Qed.

Definition man (v : fval) : bool := match v with VStr s => String.eqb s "manual" | _ => false end.
Lemma man_iff : forall v, man v = true <-> v = VStr "manual".
Proof. intros [|s|z]; cbn; split; try discriminate. - intros H. apply String.eqb_eq in H. subst s. reflexivity. - intros H. injection H as ->. reflexivity. Qed.

Lemma in_dynkeys : forall d n, In n (dynkeys d) <-> exists k, n = (k ++ "_dyn")%string /\ In (k, (true, VStr "manual")) d.
Proof.
  intros d n. unfold dynkeys. rewrite in_map_iff. split.
  - intros ((k, (b, v)) & <- & H). apply filter_In in H as [H X]. cbn [fst snd] in *. apply andb_prop in X as [-> X].
    apply (man_iff v) in X. subst v. exists k. auto.
  - intros (k & -> & H). exists (k, (true, VStr "manual")). split; [reflexivity|]. apply filter_In. split; [exact H|reflexivity].
Qed.

(** the frame with the kept columns *)
Lemma getitem_ok : forall f names, (forall n, In n names -> dget string_dec n (f_cols f) <> None) ->
  exists cols, getitem_set true f names = Ok (mkframe (f_index f) cols) /\ keys cols = names
  /\ forall n, dget string_dec n cols = if in_dec string_dec n names then dget string_dec n (f_cols f) else None.
Proof.
  intros f names. unfold getitem_set. induction names as [|a l IH]; intros H.
  - exists []. repeat split.
  - destruct IH as (cols & E & K & G); [intros n X; apply H; right; exact X|].
    cbn [mapM]. destruct (dget string_dec a (f_cols f)) as [c|] eqn:Ea; [|exfalso; apply (H a (or_introl eq_refl)); exact Ea].
    destruct (mapM _ l) as [cs|e] eqn:M; cbn [bind] in *; [|discriminate]. injection E as ->.
    exists ((a, c) :: cols). split; [reflexivity|]. split; [cbn; f_equal; exact K|].
    intros n. cbn [dget]. destruct (string_dec n a) as [->|N].
    + destruct (in_dec string_dec a (a :: l)) as [_|X]; [symmetry; exact Ea|exfalso; apply X; left; reflexivity].
    + rewrite G. destruct (in_dec string_dec n l), (in_dec string_dec n (a :: l)); try reflexivity.
      * exfalso. apply n0. right. assumption.
      * exfalso. destruct i as [->|i]; [apply N; reflexivity|contradiction].
Qed.

Section P.
Variable pint : string -> option Z.
Variable bins : string -> option (nat * (Z -> nat)).

Lemma meaning_manual : meaning pint (VStr "manual") = Ok FManual.
Proof. reflexivity. Qed.

(** a variability that does not refer to a column *)
Lemma group_no_column : forall f f' k b v, f_index f' = f_index f -> ~ uses_column pint v ->
  group pint bins f' (k, (b, v)) = group pint bins f (k, (b, v)).
Proof.
  intros f f' k b v E U. unfold group. cbn [fst snd]. rewrite E.
  destruct (meaning pint v) as [m|e] eqn:M; cbn [bind]; [|reflexivity].
  assert (Q : forall c c', param_dyn bins (f_index f) m c = param_dyn bins (f_index f) m c');
    [|rewrite (Q _ (dget string_dec (k ++ "_dyn")%string (f_cols f))); reflexivity].
  intros c c'. unfold param_dyn. destruct m as [| |s [|]|n [|]|]; try reflexivity; exfalso; apply U; destruct v as [|x|z]; cbn in M; try discriminate.
  - right. left. exists s. exact M.
  - right. right. exists n. exact M.
  - left. exact M.
Qed.
(** without its column *)
Lemma group_missing : forall f f' k b v y, f_index f' = f_index f -> uses_column pint v ->
  group pint bins f (k, (b, v)) = Ok y -> dget string_dec (k ++ "_dyn")%string (f_cols f') = None ->
  group pint bins f' (k, (b, v)) = Err AssertionError.
Proof.
  intros f f' k b v y E U Y N. unfold group in *. cbn [fst snd] in *. rewrite E, N.
  destruct v as [|s|z]; cbn in U; try contradiction. cbn [meaning] in *.
  destruct U as [M|[[t M]|[n M]]]; rewrite M in *; cbn [bind] in *; unfold param_dyn in *.
  - reflexivity.
  - destruct (bins t) as [[n bb]|]; [reflexivity|discriminate].
  - destruct (int_dyn n (f_index f)); cbn [bind] in *; [reflexivity|discriminate].
Qed.
Lemma group_needs : forall f k b v y, uses_column pint v -> group pint bins f (k, (b, v)) = Ok y -> dget string_dec (k ++ "_dyn")%string (f_cols f) <> None.
Proof. intros f k b v y U Y N. rewrite (group_missing f f k b v y eq_refl U Y N) in Y. discriminate. Qed.
End P.

(** With save_data=True the dataset of the loaded fit is the one of the stored fit. *)
Theorem C162_full : forall set_indexer save_results o f,
  f_index f <> [] -> f_cols f <> [] -> reload set_indexer true save_results o (Some f) = Some f.
Proof.
  intros si sr o f I C. unfold reload, export, write, load, empty. destruct (f_index f) as [|t r] eqn:E; [contradiction|].
  destruct (f_cols f) eqn:E2; [contradiction|]. reflexivity.
Qed.
Print Assumptions C162_full.

(** With save_data=False the groups of observations of the loaded fit are those of the stored fit exactly if no
    parameter is fitted, or if some parameter is fitted with "manual" and no other variability uses a column. *)
Theorem C162_reduced : forall pint bins d f g,
  NoDup (keys d) -> f_index f <> [] -> param_dyn_dict pint bins d (Some f) = Ok g ->
  (param_dyn_dict pint bins d (reload true false true (Single d) (Some f)) = Ok g <-> keeps_groups pint d).
Proof.
  intros pint bins d f g ND I G.
  assert (ALL : forall k v, In (k, (true, v)) d -> exists y, group pint bins f (k, (true, v)) = Ok y).
  { intros k v X. apply (mapM_all _ _ _ G). apply in_fitted. auto. }
  destruct (getitem_ok f (dynkeys d)) as (cols & E & K & D).
  { intros n X. apply in_dynkeys in X as (k & -> & X). destruct (ALL _ _ X) as [y Y].
    apply (group_needs pint bins f k true (VStr "manual") y); [left; reflexivity|exact Y]. }
  assert (R : reload true false true (Single d) (Some f) = match dynkeys d with [] => None | _ :: _ => Some (mkframe (f_index f) cols) end).
  { unfold reload, export, load. cbn [dynkeys_of bind]. rewrite E. cbn [write]. unfold empty. cbn [f_index f_cols].
    destruct (f_index f); [contradiction|]. destruct cols as [|c cs]; cbn [keys map] in K; rewrite <- K; reflexivity. }
  rewrite R. clear R E. destruct (dynkeys d) as [|n0 ns] eqn:EN.
  - cbn [param_dyn_dict]. split.
    + intros H. injection H as H. left. intros k v X.
      assert (L : List.length g = List.length (fitted d)) by (apply (mapM_len _ _ _ G)). subst g.
      assert (Y : In (k, (true, v)) (fitted d)) by (apply in_fitted; auto). destruct (fitted d); [destruct Y|discriminate].
    + intros [N|[[k X] _]].
      * cbn [param_dyn_dict] in G. assert (fitted d = []) as Z; [|rewrite Z in G; exact G].
        destruct (fitted d) as [|[k [b v]] r] eqn:Z; [reflexivity|]. exfalso. apply (N k v). apply in_fitted with (b := b). rewrite Z. left. reflexivity.
      * assert (Y : In (k ++ "_dyn")%string (dynkeys d)) by (apply in_dynkeys; exists k; auto). rewrite EN in Y. destruct Y.
  - assert (COL : forall k v, In (k, (true, v)) d -> dget string_dec (k ++ "_dyn")%string cols = if man v then dget string_dec (k ++ "_dyn")%string (f_cols f) else None).
    { intros k v X. rewrite D, <- EN. destruct (in_dec string_dec (k ++ "_dyn")%string (dynkeys d)) as [Y|Y].
      - apply in_dynkeys in Y as (k' & Q & Y). apply sapp_inj in Q. subst k'.
        assert (Some (true, v) = Some (true, VStr "manual")) as Q.
        { transitivity (dget string_dec k d); [symmetry|]; apply dget_in_nodup; auto. }
        injection Q as ->. reflexivity.
      - destruct (man v) eqn:M; [|reflexivity]. exfalso. apply Y. apply man_iff in M. subst v. apply in_dynkeys. exists k. auto. }
    cbn [param_dyn_dict]. split.
    + intros H. right. split.
      * assert (Y : In n0 (dynkeys d)) by (rewrite EN; left; reflexivity). apply in_dynkeys in Y as (k & _ & Y). exists k. exact Y.
      * intros k v X U. apply man_iff. destruct (man v) eqn:M; [reflexivity|]. exfalso.
        destruct (ALL _ _ X) as [y Y]. pose proof (COL k v X) as N. rewrite M in N.
        destruct (mapM_all _ _ _ H (k, (true, v))) as [y' Y']; [apply in_fitted; auto|].
        rewrite (group_missing pint bins f (mkframe (f_index f) cols) k true v y eq_refl U Y N) in Y'. discriminate.
    + intros [N|[_ U]].
      * assert (Y : In n0 (dynkeys d)) by (rewrite EN; left; reflexivity). apply in_dynkeys in Y as (k & _ & Y). exfalso. exact (N _ _ Y).
      * rewrite <- G. cbn [param_dyn_dict]. apply mapM_ext_in. intros (k, (b, v)) X. apply in_fitted in X as [X ->].
        destruct (man v) eqn:M.
        -- pose proof (COL k v X) as Q. rewrite M in Q. unfold group. cbn [fst snd f_index f_cols]. rewrite Q. reflexivity.
        -- apply group_no_column; [reflexivity|]. intros W. apply (U k v X) in W. apply man_iff in W. rewrite W in M. discriminate.
Qed.
Print Assumptions C162_reduced.

(** If a fit has no parameter with "manual" variability, no dataset (not even its index) is stored: the loaded fit has
    no groups at all. *)
Theorem C162_lost_refuted : forall pint bins set_indexer d ds,
  (forall k, ~ In (k, (true, VStr "manual")) d) ->
  reload set_indexer false true (Single d) ds = None
  /\ param_dyn_dict pint bins d (reload set_indexer false true (Single d) ds) = Ok [].
Proof.
  intros pint bins si d ds N.
  assert (E : dynkeys d = []).
  { destruct (dynkeys d) as [|n ns] eqn:E; [reflexivity|]. exfalso.
    assert (Y : In n (dynkeys d)) by (rewrite E; left; reflexivity). apply in_dynkeys in Y as (k & _ & Y). exact (N k Y). }
  assert (R : reload si false true (Single d) ds = None).
  { unfold reload, export, load. cbn [dynkeys_of bind]. rewrite E. destruct ds as [f|]; [|reflexivity].
    unfold getitem_set. destruct si; [|reflexivity]. cbn [mapM bind write]. unfold empty. cbn. destruct (f_index f); reflexivity. }
  rewrite R. auto.
Qed.
Print Assumptions C162_lost_refuted.

(** A fitted parameter with "<frequency> + manual": its column is not stored, the groups of the loaded fit can not be
    evaluated (AssertionError), although those of the stored fit can. *)
Theorem C162_combined_refuted : forall pint bins set_indexer d f g k s t n b,
  NoDup (keys d) -> f_index f <> [] -> param_dyn_dict pint bins d (Some f) = Ok g ->
  In (k, (true, VStr s)) d -> parse_freq pint s = Ok (FOffset t true) -> bins t = Some (n, b) ->
  match reload set_indexer false true (Single d) (Some f) with
  | Some f' => dget string_dec (k ++ "_dyn")%string (f_cols f) <> None /\ dget string_dec (k ++ "_dyn")%string (f_cols f') = None
               /\ group pint bins f' (k, (true, VStr s)) = Err AssertionError
  | None => True
  end.
Proof.
  intros pint bins si d f g k s t n b ND I G X M Bn.
  destruct (mapM_all _ _ _ G (k, (true, VStr s))) as [y Y]; [apply in_fitted; auto|].
  assert (U : uses_column pint (VStr s)) by (right; left; exists t; exact M).
  unfold reload, export, load. cbn [dynkeys_of bind]. destruct si; [|exact Logic.I].
  destruct (getitem_ok f (dynkeys d)) as (cols & E & K & D).
  { intros m W. apply in_dynkeys in W as (k' & -> & W). destruct (mapM_all _ _ _ G (k', (true, VStr "manual"))) as [y' Y']; [apply in_fitted; auto|].
    apply (group_needs pint bins f k' true (VStr "manual") y'); [left; reflexivity|exact Y']. }
  rewrite E. unfold write. destruct (empty _); [exact Logic.I|]. cbn [f_cols].
  assert (N : dget string_dec (k ++ "_dyn")%string cols = None).
  { rewrite D. destruct (in_dec string_dec (k ++ "_dyn")%string (dynkeys d)) as [W|W]; [|reflexivity].
    apply in_dynkeys in W as (k' & Q & W). apply sapp_inj in Q. subst k'.
    assert (Some (true, VStr s) = Some (true, VStr "manual")) as Q.
    { transitivity (dget string_dec k d); [symmetry|]; apply dget_in_nodup; auto. }
    injection Q as ->. discriminate M. }
  split; [apply (group_needs pint bins f k true (VStr s) y U Y)|]. split; [exact N|].
  apply (group_missing pint bins f (mkframe (f_index f) cols) k true (VStr s) y eq_refl U Y). exact N.
Qed.
Print Assumptions C162_combined_refuted.

(** The dataset of a MultiFits object is never stored with save_data=False. *)
Theorem C162_multi_refuted : forall set_indexer save_results c cfgs ds,
  reload set_indexer false save_results (Multi (c :: cfgs)) ds = None.
Proof. intros si [|] c cfgs ds; reflexivity. Qed.
Print Assumptions C162_multi_refuted.

(** With a version of pandas that does not accept sets as indexers nothing is stored for any fit. *)
Theorem C162_pandas_refuted : forall save_results o ds, reload false false save_results o ds = None.
Proof.
  intros [|] o ds; [|reflexivity]. unfold reload, export, load. destruct (dynkeys_of o) as [names|e]; cbn [bind write]; [|reflexivity].
  destruct ds as [f|]; reflexivity.
Qed.
Print Assumptions C162_pandas_refuted.

(** two dates with two observations each; "omega" is fitted per group of a column, "N" is constant in time *)
Definition ds_ex : frame := mkframe [1; 1; 2; 2]%Z [("sig", [[Dig 1]; [Dig 1]; [Dig 1]; [Dig 1]]); ("omega_dyn", [[Dig 4]; [Dig 4]; [Dig 7]; [Dig 7]])]%Z.
Definition no_int (s : string) : option Z := None.
Definition one_bin (s : string) : option (nat * (Z -> nat)) := Some (1, fun _ => 0).
Example C162_example :
  keeps_groups no_int [("omega", (true, VStr "manual")); ("N", (true, VNo))]
  /\ reload true false true (Single [("omega", (true, VStr "manual")); ("N", (true, VNo))]) (Some ds_ex)
     = Some (mkframe [1; 1; 2; 2]%Z [("omega_dyn", [[Dig 4]; [Dig 4]; [Dig 7]; [Dig 7]])]%Z)
  /\ param_dyn_dict no_int one_bin [("omega", (true, VStr "manual")); ("N", (true, VNo))] (Some ds_ex)
     = Ok [("omega", [14; 14; 17; 17]%Z); ("N", [1; 1; 1; 1]%Z)]
  /\ param_dyn_dict no_int one_bin [("omega", (true, VStr "M + manual")); ("N", (true, VNo))] (Some ds_ex)
     = Ok [("omega", [4; 4; 7; 7]%Z); ("N", [1; 1; 1; 1]%Z)]
  /\ parse_freq no_int "M + manual" = Ok (FOffset "M" true)
  /\ param_dyn_dict no_int one_bin [("omega", (true, VStr "M + manual")); ("N", (true, VStr "manual"))]
       (reload true false true (Single [("omega", (true, VStr "M + manual")); ("N", (true, VStr "manual"))])
          (Some (mkframe [1]%Z [("omega_dyn", [[Dig 4]]); ("N_dyn", [[Dig 4]])]%Z))) = Err AssertionError.
Proof.
  split.
  - right. split; [exists "omega"; left; reflexivity|]. intros k v [H|[H|[]]] U; injection H as <- <-; [reflexivity|]. cbn in U. contradiction.
  - vm_compute. auto.
Qed.
