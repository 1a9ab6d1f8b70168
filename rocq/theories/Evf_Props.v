(** Processing of features (C67, C101, C102, C103) *)
From Coq Require Import String List Arith Bool Lia.
From Verif Require Import Base Base_Proofs Evf_Model Evf_Spec Evf_Proofs.
Import ListNotations.
Local Open Scope list_scope.

(** A concrete world for the examples: a dataset is a list of numbers that is
    sorted already, the result of a fit is its length. *)
Definition dv := val (list nat) nat.
Definition empty0 (d : list nat) : bool := Nat.eqb (length d) 0.
Definition fn0 (l : list dv) : dv := VNum 9.
Definition fit0 (df : list dv) (fn d : dv) : res dv := match d with VFrame l => if Nat.eqb (length l) 3 then Err ValueError else Ok (VNum (length l)) | _ => Err TypeError end.
Definition parent0 : obj (list nat) nat := init (fun d => d) (VNum 0) (VNum 1) (VNum 2) [("ID", VStr "p"); ("dB", VBool true)]%string.
Definition run_fit0 := run_fit (fun d : list nat => d) empty0 (VNum 0) (VNum 1) (VNum 2) fn0 fit0.
Definition run_multi0 := run_multi (fun d : list nat => d) empty0 fn0 fit0.
Definition multi0 : multi (list nat) nat := mkmulti [("a"%string, parent0); ("b"%string, parent0)] VNone VNone VNone.
Definition feats : list (dv * dv * read (list nat) nat) :=
  [(VNum 0, VStr "f0", Ok (VSeq [VFrame [1;2]; VFrame [7]])); (VNum 1, VStr "f1", Ok (VFrame [3])); (VNum 2, VStr "f2", Ok (VSeq [VFrame [1;2;3]; VFrame [8]]));
   (VNum 3, VStr "f3", Ok (VSeq [VFrame [4]; VNone])); (VNum 4, VStr "f4", Ok (VFrame []))]%string.

(** value used where a computation does not end as expected *)
Definition hdf0 : hdf (list nat) nat := mkhdf VNone VNone VNone None None None.
Ltac witness t := let x := eval vm_compute in t in exists x.

(** ** C67 *)
(** Fits: every feature is stored with the auxiliary data returned by its own
    reader call (none if none), if the parent object has no auxiliary data. *)
Theorem C67_single : forall Ds Obj sorted is_empty no_lsq backend no_defs fnevals lsq_fit kw (parent : obj Ds Obj) l i ra ID r h,
  (dget string_dec "aux_data"%string parent = None \/ has parent "aux_data" VNone) ->
  nth_error l i = Some (ra, ID, r) ->
  nth_error (run_fit sorted is_empty no_lsq backend no_defs fnevals lsq_fit kw parent l) i = Some (inl h) ->
  h_aux h = if opt "save_auxdata" kw then as_table (returned_aux r) else None.
Proof.
  intros Ds Obj sorted is_empty no_lsq backend no_defs fnevals lsq_fit kw parent l i ra ID r h Hp Hl Hh. unfold run_fit in Hh. rewrite nth_error_map, Hl in Hh. cbn in Hh. injection Hh as Hh.
  apply eval_fit_spec in Hh. destruct Hh as (d & a & Hs & _ & _ & _ & Ha). apply split_ok in Hs. destruct Hs as (_ & _ & Hs). rewrite Ha, Hs. unfold hdf_aux.
  destruct (opt "save_auxdata" kw); [|reflexivity]. destruct a; try reflexivity. destruct Hp as [Hp|Hp]; unfold has in *; rewrite Hp; reflexivity.
Qed.
Print Assumptions C67_single.

Example C67_example : map (fun x => match x with inl h => Some (h_ID h, h_aux h) | inr _ => None end) (run_fit0 [] parent0 feats) =
  [Some (VStr "f0", Some (VFrame [7])); Some (VStr "f1", None); None; Some (VStr "f3", None); None]%string.
Proof. vm_compute. reflexivity. Qed.

(** ... otherwise features without auxiliary data get those of the parent object. *)
Theorem C67_parent_refuted : exists kw (parent : obj (list nat) nat) l ra ID r h a,
  l = [(ra, ID, r)] /\ run_fit0 kw parent l = [inl h] /\ returned_aux r = None /\ h_aux h = Some (VFrame a).
Proof.
  exists [], (dset string_dec "aux_data"%string (VFrame [9]) parent0), [(VNum 1, VStr "f1"%string, Ok (VFrame [3]))], (VNum 1), (VStr "f1"%string), (Ok (VFrame [3])).
  witness (match run_fit0 [] (dset string_dec "aux_data"%string (VFrame [9]) parent0) [(VNum 1, VStr "f1"%string, Ok (VFrame [3]))] with [inl h] => h | _ => hdf0 end). exists [9]. vm_compute. repeat split.
Qed.
Print Assumptions C67_parent_refuted.

(** MultiFits: every feature is stored with the auxiliary data returned last, by
    this or by an earlier (also an unsuccessful) feature. *)
Theorem C67_multi_latest : forall Ds Obj sorted is_empty fnevals lsq_fit kw (m : multi Ds Obj) l i ra ID r h,
  nth_error l i = Some (ra, ID, r) ->
  nth_error (snd (run_multi sorted is_empty fnevals lsq_fit kw m l)) i = Some (inl h) ->
  h_aux h = if opt "save_auxdata" kw
            then as_table (Some (latest (m_aux m) (map (fun x => match returned_data (snd x) with Some d => if is_empty d then None else returned_aux (snd x) | None => None end) (firstn (S i) l))))
            else None.
Proof.
  intros Ds Obj sorted is_empty fnevals lsq_fit kw m l i ra ID r h Hl Hh. rewrite (run_multi_nth _ _ _ _ _ _ _ _ _ _ _ Hl) in Hh. injection Hh as Hh.
  apply eval_multi_hdf in Hh. destruct Hh as (d & a & Hs & _ & _ & _ & Ha). rewrite Ha, run_multi_aux. unfold hdf_aux. destruct (opt "save_auxdata" kw); [|reflexivity].
  assert (St : forall q : read Ds Obj, step_aux is_empty q = match returned_data q with Some d => if is_empty d then None else returned_aux q | None => None end).
  { intros q. unfold step_aux. destruct (split is_empty q) as [[d' a']|f] eqn:E.
    - apply split_ok in E. destruct E as (-> & -> & ->). destruct a'; reflexivity.
    - destruct q as [v|e]; [|reflexivity]. cbn in E |- *. destruct v as [| | | |d0|[|x0 l0]|]; try reflexivity.
      + destruct (is_empty d0); [reflexivity|discriminate].
      + destruct x0; try reflexivity. destruct l0 as [|a0 [|b l0]]; try reflexivity; destruct (is_empty d0); try reflexivity; discriminate. }
  assert (La : forall A (x : A) u v, latest x (u ++ [v]) = match v with Some y => y | None => latest x u end).
  { intros A x u v. revert x. induction u as [|[y|] u IH]; intros x; cbn; [destruct v; reflexivity|apply IH|apply IH]. }
  assert (Ef : firstn (S i) l = firstn i l ++ [(ra, ID, r)]).
  { clear - Hl. revert i Hl. induction l as [|x l IH]; intros i Hl; [destruct i; discriminate|]. destruct i as [|i]; [injection Hl as ->; reflexivity|]. cbn in *. f_equal. apply IH. exact Hl. }
  rewrite Ef, map_app. cbn [map snd]. rewrite La, <- St.
  replace (map (fun x : val Ds Obj * val Ds Obj * read Ds Obj => match returned_data (snd x) with Some d0 => if is_empty d0 then None else returned_aux (snd x) | None => None end) (firstn i l)) with (map (fun x : val Ds Obj * val Ds Obj * read Ds Obj => step_aux is_empty (snd x)) (firstn i l)) by (apply map_ext; intros x; apply St).
  destruct (step_aux is_empty r) as [v|]; [destruct v; reflexivity|]. destruct (latest _ _); reflexivity.
Qed.
Print Assumptions C67_multi_latest.

(** hence it is the right one if it has been returned with this feature, or none ever before *)
Theorem C67_multi : forall Ds Obj sorted is_empty fnevals lsq_fit kw (m : multi Ds Obj) l i ra ID r h,
  nth_error l i = Some (ra, ID, r) ->
  nth_error (snd (run_multi sorted is_empty fnevals lsq_fit kw m l)) i = Some (inl h) ->
  (returned_aux r <> None \/ m_aux m = VNone /\ forall x, In x (firstn i l) -> returned_aux (snd x) = None) ->
  h_aux h = if opt "save_auxdata" kw then as_table (returned_aux r) else None.
Proof.
  intros Ds Obj sorted is_empty fnevals lsq_fit kw m l i ra ID r h Hl Hh Hc.
  assert (Hd : exists d, returned_data r = Some d /\ is_empty d = false).
  { pose proof Hh as Hh'. rewrite (run_multi_nth _ _ _ _ _ _ _ _ _ _ _ Hl) in Hh'. injection Hh' as Hh'. apply eval_multi_hdf in Hh'. destruct Hh' as (d & a & Hs & _). apply split_ok in Hs. exists d. tauto. }
  rewrite (C67_multi_latest _ _ _ _ _ _ _ _ _ _ _ _ _ _ Hl Hh). destruct (opt "save_auxdata" kw); [|reflexivity].
  assert (La : forall A (x : A) u v, latest x (u ++ [v]) = match v with Some y => y | None => latest x u end).
  { intros A x u v. revert x. induction u as [|[y|] u IH]; intros x; cbn; [destruct v; reflexivity|apply IH|apply IH]. }
  assert (Ef : firstn (S i) l = firstn i l ++ [(ra, ID, r)]).
  { clear - Hl. revert i Hl. induction l as [|x l IH]; intros i Hl; [destruct i; discriminate|]. destruct i as [|i]; [injection Hl as ->; reflexivity|]. cbn in *. f_equal. apply IH. exact Hl. }
  rewrite Ef, map_app. cbn [map snd]. rewrite La. destruct Hd as (d & -> & ->). destruct (returned_aux r) as [a|] eqn:Ea; [destruct a; reflexivity|].
  destruct Hc as [Hc|[Hm Hc]]; [congruence|]. rewrite Hm. clear - Hc. induction (firstn i l) as [|x u IH]; [reflexivity|]. cbn. rewrite (Hc x (or_introl eq_refl)).
  replace (match returned_data (snd x) with Some d0 => if is_empty d0 then None else None | None => None end) with (@None (val Ds Obj)) by (destruct (returned_data (snd x)) as [d0|]; [destruct (is_empty d0)|]; reflexivity). apply IH. intros y Hy. apply Hc. right. exact Hy.
Qed.
Print Assumptions C67_multi.

Example C67_multi_example : map (fun x => match x with inl h => Some (h_ID h, h_aux h) | inr _ => None end) (snd (run_multi0 [] multi0 (skipn 1 feats))) =
  [Some (VStr "f1", None); None; Some (VStr "f3", Some (VFrame [8])); None]%string.
Proof. vm_compute. reflexivity. Qed.

(** A feature without auxiliary data is stored with those of an earlier one. *)
Theorem C67_multi_refuted : exists l ra ID r h a,
  nth_error l 1 = Some (ra, ID, r) /\ nth_error (snd (run_multi0 [] multi0 l)) 1 = Some (inl h) /\
  returned_aux r = None /\ h_aux h = Some (VFrame a).
Proof.
  exists feats, (VNum 1), (VStr "f1"%string), (Ok (VFrame [3])). witness (match snd (run_multi0 [] multi0 feats) with _ :: inl h :: _ => h | _ => hdf0 end). exists [7]. vm_compute. repeat split.
Qed.
Print Assumptions C67_multi_refuted.

(** If the reader returns two or more values behind the dataset they are not
    stored for any feature (the exception is only logged). *)
Theorem C67_several_refuted : forall Ds Obj sorted is_empty no_lsq backend no_defs fnevals lsq_fit kw (parent : obj Ds Obj) ra ID d a b l h,
  eval_fit sorted is_empty no_lsq backend no_defs fnevals lsq_fit kw parent ra ID (Ok (VSeq (VFrame d :: a :: b :: l))) = inl h ->
  returned_aux (Ok (VSeq (VFrame d :: a :: b :: l))) = Some (VSeq (a :: b :: l)) /\ h_aux h = None.
Proof.
  intros Ds Obj sorted is_empty no_lsq backend no_defs fnevals lsq_fit kw parent ra ID d a b l h H. apply eval_fit_spec in H. destruct H as (d' & a' & Hs & _ & _ & _ & Ha).
  split; [destruct a; reflexivity|]. cbn in Hs. destruct (is_empty d); [discriminate|]. injection Hs as <- <-. rewrite Ha. unfold hdf_aux. destruct (opt "save_auxdata" kw); reflexivity.
Qed.
Print Assumptions C67_several_refuted.

Example C67_several_example : exists h, run_fit0 [] parent0 [(VNum 0, VStr "f"%string, Ok (VSeq [VFrame [1]; VFrame [2]; VFrame [3]]))] = [inl h] /\ h_aux h = None.
Proof. witness (match run_fit0 [] parent0 [(VNum 0, VStr "f"%string, Ok (VSeq [VFrame [1]; VFrame [2]; VFrame [3]]))] with [inl h] => h | _ => hdf0 end). vm_compute. repeat split. Qed.

(** ** C102: features are independent *)
(** The record of a feature carries its own ID, arguments and dataset. *)
Theorem C102_own_data : forall Ds Obj sorted is_empty no_lsq backend no_defs fnevals lsq_fit kw (parent : obj Ds Obj) (m : multi Ds Obj) l i ra ID r h,
  nth_error l i = Some (ra, ID, r) ->
  nth_error (run_fit sorted is_empty no_lsq backend no_defs fnevals lsq_fit kw parent l) i = Some (inl h) \/
  (m_cfg m <> [] /\ nth_error (snd (run_multi sorted is_empty fnevals lsq_fit kw m l)) i = Some (inl h)) ->
  exists d, returned_data r = Some d /\ is_empty d = false /\ h_ID h = ID /\ h_reader_arg h = ra /\ h_dataset h = VFrame (sorted d).
Proof.
  intros Ds Obj sorted is_empty no_lsq backend no_defs fnevals lsq_fit kw parent m l i ra ID r h Hl [Hh|[Hm Hh]].
  - unfold run_fit in Hh. rewrite nth_error_map, Hl in Hh. cbn in Hh. injection Hh as Hh. apply eval_fit_spec in Hh. destruct Hh as (d & a & Hs & H1 & H2 & H3 & _). apply split_ok in Hs. exists d. tauto.
  - rewrite (run_multi_nth _ _ _ _ _ _ _ _ _ _ _ Hl) in Hh. injection Hh as Hh. apply eval_multi_hdf in Hh. destruct Hh as (d & a & Hs & H1 & H2 & H3 & _). apply split_ok in Hs. exists d.
    split; [tauto|]. split; [tauto|]. split; [|tauto]. apply H1. pose proof (run_rel_r sorted is_empty VNone fnevals lsq_fit kw (firstn i l) m m (relc_refl _ _)) as R. intros X. rewrite X in R. inversion R as [Y|]. congruence.
Qed.
Print Assumptions C102_own_data.

(** MultiFits: after any history the outcome of a feature is the same as if it
    were processed first, except for the auxiliary data (C67); the Fits objects of the other case
    are created for each feature. *)
Theorem C102_history : forall Ds Obj sorted is_empty fnevals lsq_fit kw (m : multi Ds Obj) l i ra ID r,
  nth_error l i = Some (ra, ID, r) ->
  exists x y, nth_error (snd (run_multi sorted is_empty fnevals lsq_fit kw m l)) i = Some x /\
    snd (run_multi sorted is_empty fnevals lsq_fit kw m [(ra, ID, r)]) = [y] /\
    match x, y with inl h, inl h' => same_but_aux h h' | inr f, inr f' => f = f' | _, _ => False end.
Proof.
  intros Ds Obj sorted is_empty fnevals lsq_fit kw m l i ra ID r Hl. eexists. exists (snd (eval_multi sorted is_empty fnevals lsq_fit kw m ra ID r)). split; [apply (run_multi_nth sorted is_empty fnevals lsq_fit kw l m i ra ID r Hl)|].
  split; [cbn; destruct (eval_multi _ _ _ _ kw m ra ID r); cbn; reflexivity|].
  pose proof (run_rel_r sorted is_empty VNone fnevals lsq_fit kw (firstn i l) m m (relc_refl _ _)) as R. pose proof (eval_rel sorted is_empty VNone fnevals lsq_fit kw _ _ ra ID r R) as H.
  destruct (eval_multi _ _ _ _ kw m ra ID r) as [m1 x1]. cbn [snd] in H |- *. destruct (snd (eval_multi _ _ _ _ kw _ ra ID r)) as [h|f], x1 as [h1|f1]; try contradiction; [|congruence].
  unfold same_but_aux in *. intuition congruence.
Qed.
Print Assumptions C102_history.

Example C102_example : map (fun x => match x with inl h => Some (h_ID h, h_res_dict h) | inr _ => None end) (snd (run_multi0 [] multi0 feats)) =
  [Some (VStr "f0", Some [VNum 2; VNum 2]); Some (VStr "f1", Some [VNum 1; VNum 1]); None; Some (VStr "f3", Some [VNum 1; VNum 1]); None]%string.
Proof. vm_compute. reflexivity. Qed.

(** ** C101: reinit_object *)
(** The attributes that define the fit are those given, or those of the parent
    object (that is complete and holds no None for them). *)
Theorem C101_attributes : forall Ds Obj sorted no_lsq backend no_defs (self o : obj Ds Obj) sf sa kw k v,
  NoDup (keys kw) -> reinit_object sorted no_lsq backend no_defs self sf sa kw = Ok o ->
  (In k defining -> dget string_dec k kw = None -> has self k v -> v <> VNone -> (k = "dataset"%string -> forall d, v = VFrame d -> sorted d = d) -> has o k v) /\
  (In k ("ID"%string :: "verbose"%string :: "_fnevals_input"%string :: defining) -> dget string_dec k kw = Some v -> v <> VNone -> k <> "dataset"%string -> has o k v).
Proof.
  intros Ds Obj sorted no_lsq backend no_defs self o sf sa kw k v ND H. change defining with shared. apply reinit_spec in H; [|exact ND]. destruct H as (args & Ha & Ho).
  assert (Hk : k <> "aux_data"%string -> dget string_dec k o = dget string_dec k (init sorted no_lsq backend no_defs args)) by (intros N; rewrite Ho; destruct (dget string_dec "aux_data"%string self); [apply dget_set_ne; exact N|reflexivity]).
  assert (In_ : forall x d, x <> VNone -> dget string_dec k args = Some x -> arg k d args = x) by (intros x d Hx Hx'; unfold arg; rewrite Hx'; reflexivity).
  assert (G : In k ("ID"%string :: "verbose"%string :: "_fnevals_input"%string :: shared) -> dget string_dec k args = Some v -> v <> VNone -> (k = "dataset"%string -> forall d, v = VFrame d -> sorted d = d) -> has o k v).
  { intros Hin Hv Hn Hd. unfold has. rewrite Hk by (intros ->; cbn in Hin; intuition discriminate).
    assert (Hi : forall d, if_none d v = v) by (intros d; destruct v; [congruence|reflexivity..]). pose proof (In_ v) as A. specialize (fun d => A d Hn Hv) as A'. unfold init.
    cbn in Hin.
    repeat match type of Hin with
    | ?x = k \/ _ => destruct Hin as [Hin|Hin]; [rewrite <- Hin in *; cbn; rewrite ?A', ?Hi; try reflexivity|]
    | False => destruct Hin
    end.
    f_equal. destruct v; try reflexivity. cbn. rewrite (Hd eq_refl d eq_refl). reflexivity. }
  split.
  - intros Hin Hkw Hs Hn Hd. apply G; [right; right; right; exact Hin| |exact Hn|exact Hd]. rewrite Ha, Hkw. destruct (in_dec string_dec k shared); [exact Hs|contradiction].
  - intros Hin Hkw Hn Hd. apply G; [exact Hin| |exact Hn|intros; contradiction]. rewrite Ha, Hkw. reflexivity.
Qed.
Print Assumptions C101_attributes.

Example C101_example : exists o, reinit_object (fun d : list nat => d) (VNum 0) (VNum 1) (VNum 2) parent0 false true [("sig0"%string, VBool true); ("ID"%string, VStr "x"%string)] = Ok o /\
  has o "sig0" (VBool true) /\ has o "dB" (VBool true) /\ has o "ID" (VStr "x"%string).
Proof. witness (match reinit_object (fun d : list nat => d) (VNum 0) (VNum 1) (VNum 2) parent0 false true [("sig0"%string, VBool true); ("ID"%string, VStr "x"%string)] with Ok o => o | _ => [] end). vm_compute. repeat split. Qed.

(** share_auxdata=False and share_fnevals=True have no effect: auxiliary data
    are always shared, the functions of the interaction term never are (unless passed as argument). *)
Theorem C101_options_refuted : forall Ds Obj sorted no_lsq backend no_defs (self o : obj Ds Obj) sf sa kw a,
  NoDup (keys kw) -> reinit_object sorted no_lsq backend no_defs self sf sa kw = Ok o ->
  (has self "aux_data" a -> has o "aux_data" a) /\ (dget string_dec "_fnevals_input"%string kw = None -> has o "_fnevals_input" VNone).
Proof.
  intros Ds Obj sorted no_lsq backend no_defs self o sf sa kw a ND H. apply reinit_spec in H; [|exact ND]. destruct H as (args & Ha & Ho). unfold has. split; intros Hx.
  - rewrite Ho, Hx. apply dget_set_eq.
  - assert (E : dget string_dec "_fnevals_input"%string (init sorted no_lsq backend no_defs args) = Some VNone).
    { unfold init. cbn. unfold arg. rewrite (Ha "_fnevals_input"%string), Hx. reflexivity. }
    rewrite Ho. destruct (dget string_dec "aux_data"%string self); [rewrite dget_set_ne by discriminate|]; exact E.
Qed.
Print Assumptions C101_options_refuted.

(** ID and verbose are not shared (they are the defaults again). *)
Theorem C101_ID_refuted : forall Ds Obj sorted no_lsq backend no_defs (self o : obj Ds Obj) sf sa kw,
  NoDup (keys kw) -> reinit_object sorted no_lsq backend no_defs self sf sa kw = Ok o ->
  (dget string_dec "ID"%string kw = None -> has o "ID" (VStr "RT1_fit")) /\ (dget string_dec "verbose"%string kw = None -> has o "verbose" (VNum 2)).
Proof.
  intros Ds Obj sorted no_lsq backend no_defs self o sf sa kw ND H. apply reinit_spec in H; [|exact ND]. destruct H as (args & Ha & Ho). unfold has.
  split; intros Hx; rewrite Ho.
  - assert (E : dget string_dec "ID"%string (init sorted no_lsq backend no_defs args) = Some (VStr "RT1_fit")) by (unfold init; cbn; unfold arg; rewrite (Ha "ID"%string), Hx; reflexivity).
    destruct (dget string_dec "aux_data"%string self); [rewrite dget_set_ne by discriminate|]; exact E.
  - assert (E : dget string_dec "verbose"%string (init sorted no_lsq backend no_defs args) = Some (VNum 2)) by (unfold init; cbn; unfold arg; rewrite (Ha "verbose"%string), Hx; reflexivity).
    destruct (dget string_dec "aux_data"%string self); [rewrite dget_set_ne by discriminate|]; exact E.
Qed.
Print Assumptions C101_ID_refuted.

Example C101_refuted_example : exists o, let self := dset string_dec "aux_data"%string (VFrame [5]) (dset string_dec "_fnevals_input"%string (VNum 9) parent0) in
  reinit_object (fun d : list nat => d) (VNum 0) (VNum 1) (VNum 2) self true false [] = Ok o /\
  has self "ID" (VStr "p"%string) /\ has o "ID" (VStr "RT1_fit"%string) /\ has o "aux_data" (VFrame [5]) /\ has o "_fnevals_input" VNone.
Proof. witness (match reinit_object (fun d : list nat => d) (VNum 0) (VNum 1) (VNum 2) (dset string_dec "aux_data"%string (VFrame [5]) (dset string_dec "_fnevals_input"%string (VNum 9) parent0)) true false [] with Ok o => o | _ => [] end). vm_compute. repeat split. Qed.

(** ** C103: selection of the stored tables *)
Theorem C103_fit : forall Ds Obj sorted is_empty no_lsq backend no_defs fnevals lsq_fit kw (parent : obj Ds Obj) ra ID r h,
  eval_fit sorted is_empty no_lsq backend no_defs fnevals lsq_fit kw parent ra ID r = inl h ->
  (h_res_dict h <> None <-> dget string_dec "save_results"%string kw <> Some false) /\
  (h_res_df h <> None <-> dget string_dec "save_res_df"%string kw <> Some false) /\
  (dget string_dec "save_auxdata"%string kw = Some false -> h_aux h = None) /\
  (dget string_dec "save_auxdata"%string kw <> Some false -> forall a, returned_aux r = Some (VFrame a) -> h_aux h = Some (VFrame a)).
Proof.
  intros Ds Obj sorted is_empty no_lsq backend no_defs fnevals lsq_fit kw parent ra ID r h H.
  pose proof H as H0. apply eval_fit_spec in H0. destruct H0 as (d & a & Es & _ & _ & _ & Ha).
  assert (Hr : forall b, returned_aux r = Some (VFrame b) -> a = VFrame b).
  { clear -Es. intros b Hb. unfold returned_aux in Hb. unfold split in Es. destruct r as [[]|]; try discriminate Hb.
    destruct l as [|[] [|x [|y l]]]; try discriminate Hb; [|destruct x; discriminate Hb]. destruct x; try discriminate Hb. injection Hb as ->.
    destruct (is_empty d0); [discriminate Es|]. now injection Es. }
  clear Es.
  unfold eval_fit in H. destruct (split is_empty r) as [[d' a']|]; [|discriminate]. destruct (reinit_object _ _ _ _ _ _ _ _) as [o|]; [|discriminate].
  destruct (performfit _ _ _) as [o' [[]|]]; [|discriminate]. destruct (hdf_fit kw _) as [h'|] eqn:Eh; [|discriminate]. injection H as ->.
  unfold hdf_fit in Eh. destruct (unknown hdf_args kw); [discriminate|]. injection Eh as <-. cbn [h_res_dict h_res_df h_aux] in *. unfold opt.
  split; [|split; [|split]].
  - destruct (dget string_dec "save_results"%string kw) as [[|]|]; split; congruence.
  - destruct (dget string_dec "save_res_df"%string kw) as [[|]|]; split; congruence.
  - intros X. rewrite Ha. unfold hdf_aux, opt. rewrite X. reflexivity.
  - intros X b Hb. rewrite Ha. unfold hdf_aux, opt.
    rewrite (Hr b Hb).
    destruct (dget string_dec "save_auxdata"%string kw) as [[|]|]; try reflexivity. congruence.
Qed.
Print Assumptions C103_fit.

Example C103_example : exists h, run_fit0 [("save_results"%string, false)] parent0 [(VNum 1, VStr "f1"%string, Ok (VFrame [3]))] = [inl h] /\ h_res_dict h = None /\ h_res_df h = Some [VNum 1].
Proof. witness (match run_fit0 [("save_results"%string, false)] parent0 [(VNum 1, VStr "f1"%string, Ok (VFrame [3]))] with [inl h] => h | _ => hdf0 end). vm_compute. repeat split. Qed.

(** MultiFits: with the documented option save_res_df no feature is ever stored. *)
Theorem C103_multi_refuted : forall Ds Obj sorted is_empty fnevals lsq_fit kw (m : multi Ds Obj) ra ID r h,
  In "save_res_df"%string (keys kw) -> snd (eval_multi sorted is_empty fnevals lsq_fit kw m ra ID r) <> inl h.
Proof.
  intros Ds Obj sorted is_empty fnevals lsq_fit kw m ra ID r h Hin. unfold eval_multi. destruct (split is_empty r) as [[d a]|f]; [|discriminate].
  destruct (perform_all _ _ _) as [l [[]|e]]; [|discriminate].
  assert (U : unknown ["save_results"; "save_data"; "save_auxdata"]%string kw = true).
  { unfold unknown. apply existsb_exists. exists "save_res_df"%string. split; [exact Hin|]. reflexivity. }
  unfold hdf_multi. rewrite U. discriminate.
Qed.
Print Assumptions C103_multi_refuted.

Example C103_multi_example : snd (run_multi0 [("save_res_df"%string, true)] multi0 [(VNum 1, VStr "f1"%string, Ok (VFrame [3]))]) = [inr (Raised TypeError)] /\
  exists h, snd (run_multi0 [] multi0 [(VNum 1, VStr "f1"%string, Ok (VFrame [3]))]) = [inl h].
Proof. split; [vm_compute; reflexivity|]. witness (match snd (run_multi0 [] multi0 [(VNum 1, VStr "f1"%string, Ok (VFrame [3]))]) with [inl h] => h | _ => hdf0 end). vm_compute. reflexivity. Qed.

(** after a feature has been evaluated, each configuration of a MultiFits object has its data: dataset, auxiliary data (if
    the reader returned some), reader arguments and ID *)
Theorem C67_configurations : forall Ds Obj sorted is_empty fnevals lsq_fit kw (m : multi Ds Obj) ra ID r d a,
  split is_empty r = inl (d, a) ->
  let m' := fst (eval_multi sorted is_empty fnevals lsq_fit kw m ra ID r) in
  map fst (m_cfg m') = map fst (m_cfg m) /\
  forall c, In c (m_cfg m') -> dget string_dec "dataset"%string (snd c) = Some (check sorted (VFrame d)) /\ dget string_dec "reader_arg"%string (snd c) = Some ra /\
    dget string_dec "ID"%string (snd c) = Some ID /\ (a <> VNone -> dget string_dec "aux_data"%string (snd c) = Some a).
Proof.
  intros Ds Obj sorted is_empty fnevals lsq_fit kw m ra ID r d a S. cbv zeta. unfold eval_multi. rewrite S.
  set (m1 := match a with VNone => set_dataset sorted (VFrame d) m | _ => set_aux_data a (set_dataset sorted (VFrame d) m) end).
  assert (C1 : map fst (m_cfg m1) = map fst (m_cfg m) /\ forall c, In c (m_cfg m1) -> dget string_dec "dataset"%string (snd c) = Some (check sorted (VFrame d)) /\ (a <> VNone -> dget string_dec "aux_data"%string (snd c) = Some a)).
  { assert (N : forall k v (l : list (string * obj Ds Obj)), map fst (set_all k v l) = map fst l) by (intros; unfold set_all; rewrite map_map; reflexivity).
    split; [unfold m1; destruct a; cbn [set_aux_data set_dataset m_cfg]; now rewrite !N|].
    intros c Hc. assert (X : exists q, In q (m_cfg m) /\ snd c = match a with VNone => dset string_dec "dataset"%string (check sorted (VFrame d)) (snd q) | _ => dset string_dec "aux_data"%string a (dset string_dec "dataset"%string (check sorted (VFrame d)) (snd q)) end).
    { unfold m1 in Hc. destruct a; cbn [set_aux_data set_dataset m_cfg] in Hc; unfold set_all in Hc; rewrite ?map_map in Hc; apply in_map_iff in Hc; destruct Hc as (q & <- & Hq); exists q; split; auto. }
    destruct X as (q & _ & ->). destruct a; (split; [rewrite ?dget_dset_other by discriminate; apply dget_dset_same|]); intros NE; try congruence; apply dget_dset_same. }
  destruct C1 as [C1 C2]. clearbody m1.
  destruct (perform_all fnevals lsq_fit (m_cfg (set_ID ID (set_reader_arg ra m1)))) as [l x] eqn:Ep.
  assert (G : map fst l = map fst (m_cfg m) /\ forall c, In c l -> dget string_dec "dataset"%string (snd c) = Some (check sorted (VFrame d)) /\ dget string_dec "reader_arg"%string (snd c) = Some ra /\
    dget string_dec "ID"%string (snd c) = Some ID /\ (a <> VNone -> dget string_dec "aux_data"%string (snd c) = Some a)).
  { destruct (perform_fst _ _ _ _ _ Ep) as [F1 F2]. split.
    - rewrite F1. cbn [set_ID set_reader_arg m_cfg]. unfold set_all. rewrite !map_map. cbn [fst]. exact C1.
    - clear Ep F1 C1. cbn [set_ID set_reader_arg m_cfg] in F2. revert l F2 C2. induction (m_cfg m1) as [|c0 l0 IH]; intros l F2 C2 c Hc; inversion F2 as [|? c' ? l' R1 R2]; subst; [destruct Hc|].
      destruct Hc as [<-|Hc]; [|apply (IH l' R2); [intros; apply C2; now right|exact Hc]]. destruct (C2 c0 (or_introl eq_refl)) as [D1 D2]. cbn [snd] in R1.
      repeat split; [| | |intros NE]; rewrite R1 by discriminate; rewrite ?dget_dset_other by discriminate; try apply dget_dset_same; auto.
    }
  destruct x as [[]|e]; [|exact G]. destruct (hdf_multi kw _); exact G.
Qed.
Print Assumptions C67_configurations.
