(** Edge cases of earlier properties: inputs that are rejected (C26, C30, C43, C81, C103, C106) *)
From Coq Require Import String List ZArith Reals Bool.
From Verif Require Import Base Base_Proofs Str_Model Str_Proofs GF_Model Con_Model Con_Spec Con_Proofs Cfg_Model Evf_Model Evf_Spec Evf_Props.
Import ListNotations.

(** rectangularize of no rows: next() of an empty iterator *)
Theorem C26_no_rows_raises : forall A dim, @rectangularize_mask A [] dim = Err StopIteration /\ @rectangularize A [] dim = Err StopIteration.
Proof. intros. split; reflexivity. Qed.
Print Assumptions C26_no_rows_raises.
(** scale of no values: the minimum of nothing *)
Theorem C30_no_values_raises : forall rng, scale [] rng = Err ValueError.
Proof. reflexivity. Qed.
Print Assumptions C30_no_values_raises.
Example C26_no_rows_example : @rectangularize nat [] None = Err StopIteration /\ @rectangularize nat [[1]] None = Ok [[1]] /\ scale [] (0%R, 1%R) = Err ValueError.
Proof. repeat split. Qed.

Open Scope string_scope.
(** d[x]["k"] = v with a name that is no property: rejected, nothing changes *)
Theorem C81_item_rejected : forall d x k v, In x (Con_Model.dd_keys d) -> reachable d -> ~ In k paramnames -> k <> "name" ->
  step (SetKey x k v) d = (d, Some AttributeError).
Proof.
  intros d x k v Hx H Hk N. apply reachable_wf in H. apply wf_getitem in Hx; [|exact H]. destruct Hx as [y Hy].
  cbn [step]. unfold modify. rewrite Hy. unfold setitem_key. rewrite (set_param_none k v y Hk). destruct (String.eqb_spec k "name"); [contradiction|reflexivity].
Qed.
Print Assumptions C81_item_rejected.
(** d[x]["name"] = v is accepted, d[x].name = v is not; properties and listing stay *)
Theorem C81_name : forall d x v, In x (Con_Model.dd_keys d) -> reachable d ->
  step (SetProp x "name" v) d = (d, Some AttributeError) /\
  exists d', step (SetKey x "name" v) d = (d', None) /\ Con_Model.dd_keys d' = Con_Model.dd_keys d /\ forall z k, In k paramnames -> property z k d' = property z k d.
Proof.
  intros d x v Hx H. apply reachable_wf in H. assert (Hx' := Hx). apply wf_getitem in Hx'; [|exact H]. destruct Hx' as [y Hy].
  cbn [step]. unfold modify. rewrite Hy. unfold setattr_var, setitem_key. cbn [set_param String.eqb Ascii.eqb Bool.eqb orb]. split; [reflexivity|].
  eexists. split; [reflexivity|]. split; [reflexivity|]. intros z k K. unfold property. destruct (string_dec z x) as [->|N].
  - rewrite getitem_put_same, Hy. cbn in K. repeat (destruct K as [<-|K]; [reflexivity|]). destruct K.
  - rewrite getitem_put_other by exact N. reflexivity.
Qed.
Print Assumptions C81_name.
(** d[x][3] = v: what is not ([min], [max]) is rejected *)
Theorem C106_bad_bounds : forall d x i l, In x (Con_Model.dd_keys d) -> reachable d -> (i = 3 \/ i = -2)%Z ->
  (forall a b, l <> [VList [a]; VList [b]]) -> (forall e, In e l -> exists m, e = VList m) ->
  step (SetItem x i (VTup l)) d = (d, Some ValueError) /\ step (SetItem x i (VList l)) d = (d, Some ValueError).
Proof.
  intros d x i l Hx H Hi Hl He. apply reachable_wf in H. apply wf_getitem in Hx; [|exact H]. destruct Hx as [y Hy].
  assert (U : (forall v, iterate v = Ok l -> unpack_minmax v = Err ValueError)).
  { intros v Ev. unfold unpack_minmax. rewrite Ev. cbn [bind]. destruct l as [|e1 [|e2 [|e3 l]]]; try reflexivity.
    destruct (He e1) as [m1 ->]; [cbn; auto|]. destruct (He e2) as [m2 ->]; [cbn; auto|]. unfold unpack1. cbn [iterate bind].
    destruct m1 as [|a [|? ?]]; try reflexivity. cbn [bind]. destruct m2 as [|b [|? ?]]; try reflexivity. elim (Hl a b). reflexivity. }
  assert (P : py_index index_names i = Some "mima") by (destruct Hi as [->| ->]; reflexivity).
  cbn [step]. unfold modify, setitem_int. rewrite Hy, P. cbn [String.eqb Ascii.eqb Bool.eqb]. rewrite !U by reflexivity. split; reflexivity.
Qed.
Print Assumptions C106_bad_bounds.
Example C81_item_example : let d := fst (run [Add "omega" [Con_Model.VBool true] []] new_defdict) in
  snd (step (SetKey "omega" "vall" Con_Model.VNone) d) = Some AttributeError /\ snd (step (SetKey "omega" "val" Con_Model.VNone) d) = None /\
  snd (step (SetItem "omega" 3 (VTup [VList [Con_Model.VNone]])) d) = Some ValueError /\ snd (step (SetItem "omega" 3 (VTup [VList [Con_Model.VNone]; VList [Con_Model.VNone; Con_Model.VNone]])) d) = Some ValueError.
Proof. repeat split. Qed.

(** a date that does not match its format is rejected *)
Theorem C43_date : forall pfloat pint D (strptime : string -> string -> option D) resolve name s,
  String.eqb s "None" = false ->
  parse_spec pfloat pint D strptime resolve ("datetime__" ++ name) (Some s) =
    match strptime (fst (split_fmt s)) (match snd (split_fmt s) with Some f => f | None => "%Y-%m-%d %H:%M:%S.%f" end) with
    | Some d => Ok (name, SDate D d) | None => Err ValueError end.
Proof.
  intros pfloat pint D strptime resolve name s N. unfold parse_spec. rewrite N.
  rewrite startswith_app. cbn iota. change (drop 10 ("datetime__" ++ name)) with name. destruct (split_fmt s) as [a f]. cbn [fst snd]. unfold to_dt.
  destruct (strptime a _); reflexivity.
Qed.
Print Assumptions C43_date.
Example C43_date_example : let strptime := fun s f : string => if String.eqb f "%Y" then (if String.eqb s "2020" then Some 2020 else None) else None in
  parse_spec (fun _ => None) (fun _ => None) nat strptime (fun s => s) "datetime__t" (Some "2020 fmt=%Y") = Ok ("t", SDate nat 2020) /\
  parse_spec (fun _ => None) (fun _ => None) nat strptime (fun s => s) "datetime__t" (Some "x fmt=%Y") = Err ValueError.
Proof. split; reflexivity. Qed.

(** The options of hdf_export_kwargs: the four documented ones are accepted, any other makes every feature fail. *)
Theorem C103_known_options : forall Ds Obj kw (o : obj Ds Obj),
  (forall k, In k (keys kw) -> k = "save_results" \/ k = "save_res_df" \/ k = "save_data" \/ k = "save_auxdata") -> exists h, hdf_fit kw o = Ok h.
Proof.
  intros Ds Obj kw o H. unfold hdf_fit. assert (U : unknown hdf_args kw = false); [|rewrite U; eauto].
  unfold unknown. destruct (existsb _ _) eqn:E; [|reflexivity]. apply existsb_exists in E. destruct E as (k & K & X). apply H in K. destruct K as [->|[->|[->| ->]]]; discriminate.
Qed.
Print Assumptions C103_known_options.
Theorem C103_unknown_option : forall Ds Obj kw (o : obj Ds Obj) k, In k (keys kw) ->
  k <> "save_results" -> k <> "save_res_df" -> k <> "save_data" -> k <> "save_auxdata" -> hdf_fit kw o = Err TypeError.
Proof.
  intros Ds Obj kw o k K N1 N2 N3 N4. unfold hdf_fit. assert (U : unknown hdf_args kw = true); [|rewrite U; reflexivity].
  unfold unknown. apply existsb_exists. exists k. split; [exact K|]. apply negb_true_iff, inb_false. cbn. intuition congruence.
Qed.
Print Assumptions C103_unknown_option.
Example C103_option_example : exists h, hdf_fit [("save_data", false); ("save_auxdata", true)] parent0 = Ok h /\ hdf_fit [("save_datax", false)] parent0 = Err TypeError.
Proof. eexists. split; reflexivity. Qed.
