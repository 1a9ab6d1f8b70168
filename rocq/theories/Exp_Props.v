(** C68, C107-C110: the export of results. *)
From Coq Require Import String ZArith QArith Bool Permutation Lia List.
From Verif Require Import Base Base_Proofs Exp_Model Exp_Spec Exp_Proofs.
Import ListNotations.
Local Open Scope list_scope.

(** ** C68 classification of the variables *)
Theorem C68_partition : forall d, let s := defdict_parser d in
  Permutation (keys d) (constant s ++ auxiliary s ++ fitted_const s ++ fitted_dynamic s) /\
  Permutation (fitted s) (fitted_const s ++ fitted_dynamic s).
Proof.
  intros d s. unfold s. rewrite parser_eq. cbn [constant auxiliary fitted_const fitted_dynamic fitted].
  assert (F : Permutation (names b_fit d) (names b_const d ++ names b_dyn d)).
  { apply names_split; intros v; unfold b_const, b_dyn; destruct (b_fit v), (is_none (n_freq v)); cbn; auto; discriminate. }
  split; [|exact F].
  assert (A : Permutation (keys d) (names (fun v => negb (b_fit v)) d ++ names b_fit d)).
  { rewrite <- (names_all (fun _ => true) d) by reflexivity. apply names_split; intros v; [|discriminate].
    destruct (b_fit v); reflexivity. }
  assert (B : Permutation (names (fun v => negb (b_fit v)) d) (names b_fix d ++ names b_aux d)).
  { apply names_split; intros v; unfold b_fix, b_aux; destruct (b_fit v), (eq_str (n_val v) "auxiliary"); cbn; auto; discriminate. }
  rewrite A, B, F, <- app_assoc. reflexivity.
Qed.
Print Assumptions C68_partition.

Theorem C68_meaning : forall d key v, NoDup (keys d) -> In (key, v) d -> let s := defdict_parser d in
  (In key (constant s) <-> ~ is_fitted v /\ ~ is_auxiliary v) /\
  (In key (auxiliary s) <-> ~ is_fitted v /\ is_auxiliary v) /\
  (In key (fitted_const s) <-> is_fitted v /\ ~ is_dynamic v) /\
  (In key (fitted_dynamic s) <-> is_fitted v /\ is_dynamic v) /\
  (In key (fitted s) <-> is_fitted v).
Proof.
  intros d key v Hn Hi s. unfold s. rewrite parser_eq. cbn [constant auxiliary fitted_const fitted_dynamic fitted].
  assert (G : forall p, In key (names p d) <-> p v = true).
  { intros p. rewrite in_names. split; [|eauto]. intros (w & Hw & E).
    apply (in_dget _ _ _ Hn) in Hi. apply (in_dget _ _ _ Hn) in Hw. congruence. }
  rewrite !G. split; [apply b_fix_iff|]. split; [apply b_aux_iff|]. split; [apply b_const_iff|].
  split; [apply b_dyn_iff|apply b_fit_iff].
Qed.
Print Assumptions C68_meaning.

(** the four kinds of variability, and the ones that have none of them *)
Theorem C68_kinds : forall d key v, NoDup (keys d) -> In (key, v) d -> is_fitted v -> let s := defdict_parser d in
  (In key (fitted_dynamic_manual s) <-> n_freq v = PStr "manual") /\
  (In key (fitted_dynamic_index s) <-> n_freq v = PStr "index") /\
  (In (key, n_freq v) (fitted_dynamic_datetime s) <->
     exists t, n_freq v = PStr t /\ t <> "manual"%string /\ t <> "index"%string) /\
  (In (key, n_freq v) (fitted_dynamic_integer s) <-> (exists z, n_freq v = PInt z) \/ (exists b, n_freq v = PBool b)).
Proof.
  intros d key v Hn Hi Hf s. unfold s. rewrite parser_eq.
  cbn [fitted_dynamic_manual fitted_dynamic_index fitted_dynamic_datetime fitted_dynamic_integer].
  assert (U : forall w, In (key, w) d -> w = v).
  { intros w Hw. apply (in_dget _ _ _ Hn) in Hi. apply (in_dget _ _ _ Hn) in Hw. congruence. }
  assert (G : forall p, In key (names p d) <-> p v = true).
  { intros p. rewrite in_names. split; [|eauto]. intros (w & Hw & E). rewrite (U w Hw) in E. exact E. }
  assert (K : forall p, In (key, n_freq v) (freqs p d) <-> p v = true).
  { intros p. rewrite in_freqs. split; [|eauto]. intros (w & Hw & E & _). rewrite (U w Hw) in E. exact E. }
  rewrite !G, !K. apply b_fit_iff in Hf. unfold b_man, b_idx, b_date, b_int. rewrite Hf. cbn [andb].
  split; [apply eq_str_iff|]. split; [apply eq_str_iff|]. split.
  - destruct (n_freq v) as [| | | |t]; try (split; [discriminate|intros (t & Q & _); discriminate]).
    rewrite andb_true_iff, !negb_true_iff, !String.eqb_neq. split.
    + intros [H1 H2]. exists t. auto.
    + intros (u & Q & H1 & H2). inversion Q; subst. auto.
  - destruct (n_freq v) as [|b|z| |]; split; try discriminate; eauto; intros [[x Q]|[x Q]]; discriminate.
Qed.
Print Assumptions C68_kinds.

Example C68_example :
  let d := [("omega", mkdefn (PBool true) (PFloat (1#2)) PNone); ("tau", mkdefn (PBool true) (PStr "auxiliary") (PStr "D"));
            ("N", mkdefn (PBool false) (PFloat 1) PNone); ("LAI", mkdefn (PBool false) (PStr "auxiliary") PNone);
            ("t", mkdefn (PBool true) (PFloat 0) (PFloat 3)); ("w", mkdefn (PInt 1) (PFloat 0) (PStr "index"))]%string in
  let s := defdict_parser d in
  NoDup (keys d) /\ constant s = ["N"; "w"]%string /\ auxiliary s = ["LAI"]%string /\ fitted_const s = ["omega"]%string /\
  fitted_dynamic s = ["tau"; "t"]%string /\ fitted_dynamic_datetime s = [("tau", PStr "D")]%string /\ fitted_dynamic_integer s = [].
Proof.
  split; [|repeat split]. cbn. repeat constructor; cbn; intuition discriminate.
Qed.

(** ** C107 every requested parameter is exported *)
(** the first fit that is exported *)
Theorem C107_requested : forall Col Val to_dB to_degree set_indexer lower params metrics fs sd ideg name fit files,
  NoDup (keys fs) -> NoDup (keys (f_defdict Col Val fit)) ->
  set_indexer = true \/ (forall k, In k params -> ~ In k contributions) ->
  (forall k, In k params -> exists p, part_of Col Val fs fit k p) ->
  (forall n m, In (n, m) metrics -> exists v, metric_value Col Val lower fit fs n m = Ok v) ->
  exists t outs,
    export_data_to_HDF Col Val to_dB to_degree set_indexer lower params metrics fs sd ideg ([(name, fit)] :: files)
      = Ok [(name, t)] :: outs /\
    holds Col Val fs fit (fun k => In k params) t.
Proof.
  intros Col Val to_dB to_degree si lower params metrics fs sd ideg name fit files Hfs Hdd Hset Hpart Hmet.
  unfold export_data_to_HDF. rewrite request. set (ps := without contributions (nodup string_dec params)).
  set (mk := filter (fun k => inb string_dec k ["tot"; "surf"; "vol"; "inter"]%string) (nodup string_dec params)).
  destruct (metric_mapM Col Val lower fit fs metrics Hmet) as [mvals Em].
  assert (Ips : forall k, In k ps <-> In k params /\ ~ In k contributions).
  { intros k. unfold ps. rewrite in_without, nodup_In. tauto. }
  assert (Imk : forall k, In k mk <-> In k params /\ In k contributions).
  { intros k. unfold mk. rewrite filter_In, nodup_In, inb_iff. reflexivity. }
  destruct (hdf_export_holds Col Val to_dB to_degree si lower mk metrics mvals fs ps fit) as (t & E & H & _); auto.
  - unfold ps. apply without_nodup, NoDup_nodup.
  - unfold mk. apply NoDup_filter, NoDup_nodup.
  - intros k Hk. apply Imk in Hk. tauto.
  - intros k Hk. apply Ips in Hk. tauto.
  - destruct Hset as [Hs|Hs]; [left; exact Hs|right]. unfold mk. apply filter_none. intros k Hk.
    apply nodup_In in Hk. apply inb_neg. exact (Hs k Hk).
  - intros k Hk. apply Hpart. rewrite Ips, Imk in Hk. tauto.
  - cbn [export_files export_file]. rewrite E. cbn [bind]. exists t. eexists. split; [reflexivity|].
    destruct H as (H1 & H2 & H3 & H4). split; [exact H1|]. split; [exact H2|].
    assert (Eq : forall k, In k ps \/ In k mk <-> In k params).
    { intros k. rewrite Ips, Imk. destruct (in_dec string_dec k contributions); tauto. }
    split; intros; [rewrite H3, Eq|rewrite H4, Eq]; reflexivity.
Qed.
Print Assumptions C107_requested.

(** a constant cannot be exported: the result of the whole file is lost *)
Theorem C107_constant_refuted : forall Col Val to_dB to_degree set_indexer lower params metrics fs sd ideg name fit files key,
  In key params -> ~ In key contributions -> ~ In key (keys fs) ->
  NoDup (keys (f_defdict Col Val fit)) -> is_constant Col Val fit key ->
  (exists e outs,
    export_data_to_HDF Col Val to_dB to_degree set_indexer lower params metrics fs sd ideg ([(name, fit)] :: files) = Err e :: outs) /\
  (params = [key] -> exists outs,
    export_data_to_HDF Col Val to_dB to_degree set_indexer lower params metrics fs sd ideg ([(name, fit)] :: files)
      = Err AttributeError :: outs).
Proof.
  intros Col Val to_dB to_degree si lower params metrics fs sd ideg name fit files key Hp Hc Hf Hd Hk. split.
  - unfold export_data_to_HDF. rewrite request. cbn [export_files export_file].
    match goal with |- context [hdf_export _ _ _ _ _ _ ?mk _ _ _ _ ?ps _] =>
      destruct (hdf_constant Col Val to_dB to_degree si lower mk metrics fs false false ps fit key) as [e E]; auto;
      [apply in_without; rewrite nodup_In; auto|rewrite filter_In, inb_iff; intros [_ Q]; contradiction|];
      destruct (hdf_export Col Val to_dB to_degree si lower mk metrics fs false false ps fit) as [ps1 r] end.
    cbn [snd] in E. subst r. exists e. eexists. reflexivity.
  - intros ->. unfold export_data_to_HDF. rewrite request. change (nodup string_dec [key]) with [key].
    assert (M : filter (fun k => inb string_dec k ["tot"; "surf"; "vol"; "inter"]%string) [key] = []).
    { apply filter_none. intros k [<-|[]]. apply inb_neg. exact Hc. }
    assert (P : without contributions [key] = [key]).
    { apply filter_all. intros k [<-|[]]. apply nin_t. exact Hc. }
    rewrite M, P. cbn [export_files export_file]. unfold hdf_export. cbn [model_columns].
    assert (R : forall fs', ~ In key (keys fs') -> run_xfuncs Col Val fit fs' [key] [] [] = ([key], Ok ([], []))).
    { clear. induction fs' as [|[k f] fs' IH]; intros H; [reflexivity|]. cbn [run_xfuncs].
      assert (Q : inb string_dec k [key] = false).
      { apply inb_neg. intros [<-|[]]. apply H. left; reflexivity. }
      rewrite Q. apply IH. intros H1. apply H. right; exact H1. }
    rewrite (R fs Hf). cbn [bind keys map]. unfold postprocess_getparams.
    change (sym_diff (sym_diff [key] []) []) with [key]. cbn [get_params].
    rewrite (step_constant Col Val to_dB to_degree fit false false key _ Hd Hk) by auto. cbn [bind].
    eexists. reflexivity.
Qed.
Print Assumptions C107_constant_refuted.

(** with a pandas that does not accept sets as indexers, no model contribution can be exported *)
Theorem C107_contributions_refuted : forall Col Val to_dB to_degree lower params metrics fs sd ideg files key,
  In key params -> In key contributions ->
  Forall (fun file => file <> []) files ->
  Forall (fun out => exists e, out = Err e)
    (export_data_to_HDF Col Val to_dB to_degree false lower params metrics fs sd ideg files).
Proof.
  intros Col Val to_dB to_degree lower params metrics fs sd ideg files key Hp Hc Hfiles.
  unfold export_data_to_HDF. rewrite request.
  set (mk := filter (fun k => inb string_dec k ["tot"; "surf"; "vol"; "inter"]%string) (nodup string_dec params)).
  assert (Hm : In key mk) by (unfold mk; apply filter_In; rewrite nodup_In, inb_iff; auto).
  clearbody mk. generalize (without contributions (nodup string_dec params)).
  induction Hfiles as [|file files Hf _ IH]; intros ps; cbn [export_files]; [constructor|].
  assert (E : exists ps1 e, export_file Col Val to_dB to_degree false lower mk metrics fs false false ps file = (ps1, Err e)).
  { destruct file as [|[n fit] file]; [congruence|]. cbn [export_file]. unfold hdf_export, model_columns.
    destruct mk as [|k0 mk0]; [destruct Hm|]. destruct (f_model _ _ fit); cbn [bind]; eauto. }
  destruct E as (ps1 & e & ->). constructor; [eauto|apply IH].
Qed.
Print Assumptions C107_contributions_refuted.

(** a fit for the examples: columns are lists of numbers, values are numbers *)
Definition ex_fit : fitobj (list Q) Q :=
  mkfit _ _ [("omega", mkdefn (PBool true) (PFloat (1#2)) PNone); ("tau", mkdefn (PBool true) (PFloat 1) (PStr "D"));
             ("N", mkdefn (PBool false) (PFloat 1) PNone); ("LAI", mkdefn (PBool false) (PStr "auxiliary") PNone)]%string
    false [("sig", [1%Q; 2]); ("inc", [3%Q; 4]); ("LAI", [5%Q; 6])]%string [("tau", [7%Q; 8])]%string
    [("omega", [9%Q]); ("tau", [7%Q; 8])]%string [("gpi", 10%Q)]%string
    (Ok [("tot", [11%Q; 12]); ("surf", [13%Q; 14]); ("vol", [15%Q; 16]); ("inter", [17%Q; 18])]%string)
    (fun _ _ _ => Ok 0%Q).
Definition ex_export := export_data_to_HDF (list Q) Q (map (fun x => x * 10)%Q) (map (fun x => x * 100)%Q).
Example C107_example :
  let fs := [("score"%string, fun _ => Ok (XVal (list Q) Q 42%Q))] in
  let request := ["sig"; "tau"; "omega"; "LAI"; "gpi"; "tot"; "score"]%string in
  (forall k, In k request -> exists p, part_of _ _ fs ex_fit k p) /\
  ex_export true (fun s => s) request [] fs false false [[("default"%string, ex_fit)]] =
    [Ok [("default"%string, mktables _ _
       [("sig", [1%Q; 2]); ("tau", [7%Q; 8]); ("LAI", [5%Q; 6]); ("tot", [11%Q; 12])]%string
       [("score", 42%Q); ("omega", 9%Q); ("gpi", 10%Q)]%string [])]] /\
  is_constant _ _ ex_fit "N" /\
  ex_export true (fun s => s) ["sig"; "N"]%string [] [] false false [[("default"%string, ex_fit)]] = [Err AttributeError] /\
  ex_export false (fun s => s) ["sig"; "tot"]%string [] [] false false [[("default"%string, ex_fit)]] = [Err TypeError].
Proof.
  intros fs request.
  assert (A : forall k, In k request -> exists p, part_of _ _ fs ex_fit k p).
  { intros k H. cbn in H.
    assert (N : forall k, ~ In k ["tot"; "surf"; "vol"; "inter"]%string -> ~ In k contributions) by (intros ? Q; exact Q).
    destruct H as [<-|[<-|[<-|[<-|[<-|[<-|[<-|[]]]]]]]].
    1,2,3,4,5: (eexists; apply part_found; [apply N; cbn; intuition discriminate|cbv; intuition discriminate|];
      apply (found_iff (list Q) Q (fun c => c) (fun c => c)); reflexivity).
    - eexists. eapply part_model; [left; reflexivity|reflexivity|reflexivity].
    - eexists. eapply part_fun_single; [apply N; cbn; intuition discriminate|reflexivity|reflexivity]. }
  split; [exact A|]. split; [reflexivity|]. split; [|split; reflexivity].
  split; [discriminate|]. eexists. split; [reflexivity|]. split; discriminate.
Qed.

(** ** C108 conversion of the exported data *)
(** the options have no effect at all *)
Theorem C108_options_refuted : forall Col Val to_dB to_degree set_indexer lower params metrics fs sd ideg sd' ideg' files,
  export_data_to_HDF Col Val to_dB to_degree set_indexer lower params metrics fs sd ideg files =
  export_data_to_HDF Col Val to_dB to_degree set_indexer lower params metrics fs sd' ideg' files.
Proof. reflexivity. Qed.
Print Assumptions C108_options_refuted.

(** so that backscatter and incidence angles are written as they are in the dataset *)
Theorem C108_not_converted_refuted : forall Col Val to_dB to_degree set_indexer lower name fit c c' files,
  NoDup (keys (f_defdict Col Val fit)) -> f_dB _ _ fit = false ->
  has "sig" c (f_dataset _ _ fit) -> has "inc" c' (f_dataset _ _ fit) -> lacks "inc" (f_defdict _ _ fit) ->
  exists t outs,
    export_data_to_HDF Col Val to_dB to_degree set_indexer lower ["sig"; "inc"]%string [] [] true true ([(name, fit)] :: files)
      = Ok [(name, t)] :: outs /\
    t_dynamic _ _ t = [("sig", c); ("inc", c')]%string.
Proof.
  intros Col Val to_dB to_degree si lower name fit c c' files Hd Hb Hs Hi Hl. unfold has in *. apply dget_lacks in Hl.
  unfold export_data_to_HDF. rewrite request. cbn [export_files export_file]. unfold hdf_export.
  change (nodup string_dec ["sig"; "inc"]%string) with ["sig"; "inc"]%string.
  change (filter _ ["sig"; "inc"]%string) with (@nil string).
  change (without contributions ["sig"; "inc"]%string) with ["sig"; "inc"]%string.
  cbn [model_columns run_xfuncs bind keys map]. change (sym_diff (sym_diff _ []) []) with ["sig"; "inc"]%string.
  unfold postprocess_getparams. cbn [get_params]. unfold get_param_step at 1.
  change (String.eqb "sig" "sig") with true. cbn iota. rewrite Hs, andb_false_r. cbn [bind app].
  unfold get_param_step. change (String.eqb "inc" "sig") with false. change (String.eqb "inc" "inc") with true.
  cbn [andb]. unfold dmem. rewrite Hl, Hi. change (inb string_dec "inc"%string _) with false. cbn [andb bind app mapM fst snd].
  eexists. eexists. split; [reflexivity|reflexivity].
Qed.
Print Assumptions C108_not_converted_refuted.

(** the function behind it does convert: to dB if the data are not in dB
    already, and to degrees *)
Theorem C108_getparams : forall Col Val to_dB to_degree fit c c',
  has "sig" c (f_dataset Col Val fit) -> has "inc" c' (f_dataset _ _ fit) ->
  let get k sd ideg := postprocess_getparams Col Val to_dB to_degree fit [k] [] [] sd ideg in
  (forall ideg, get "sig"%string true ideg = Ok ([("sig"%string, if f_dB _ _ fit then c else to_dB c)], [])) /\
  (forall ideg, get "sig"%string false ideg = Ok ([("sig"%string, c)], [])) /\
  (forall sd, get "inc"%string sd true = Ok ([("inc"%string, to_degree c')], [])) /\
  (forall k d ideg, In k contributions -> has k d (f_dataset _ _ fit) -> lacks k (f_defdict _ _ fit) ->
     get k true ideg = Ok ([(k, if f_dB _ _ fit then d else to_dB d)], []) /\
     get k false ideg = Ok ([(k, d)], [])).
Proof.
  intros Col Val to_dB to_degree fit c c' Hs Hi get. unfold has in *. unfold get, postprocess_getparams, get_params, get_param_step.
  split; [|split; [|split]].
  - intros ideg. change (String.eqb "sig" "sig") with true. cbn iota. rewrite Hs. destruct (f_dB _ _ fit); reflexivity.
  - intros ideg. change (String.eqb "sig" "sig") with true. cbn iota. rewrite Hs, andb_false_r. reflexivity.
  - intros sd. change (String.eqb "inc" "sig") with false. change (String.eqb "inc" "inc") with true. cbn [andb].
    rewrite Hi. reflexivity.
  - intros k d ideg Hk Hd Hl. apply dget_lacks in Hl.
    assert (N1 : String.eqb k "sig" = false /\ String.eqb k "inc" = false /\ inb string_dec k ["tot"; "surf"; "vol"; "inter"]%string = true).
    { destruct Hk as [<-|[<-|[<-|[<-|[]]]]]; repeat split. }
    destruct N1 as (N1 & N2 & N3). rewrite N1, N2, N3. unfold dmem. rewrite Hl, Hd. cbn [andb].
    split; destruct (f_dB _ _ fit); reflexivity.
Qed.
Print Assumptions C108_getparams.

Example C108_example :
  ex_export true (fun s => s) ["sig"; "inc"]%string [] [] true true [[("default"%string, ex_fit)]] =
    [Ok [("default"%string, mktables _ _ [("sig", [1%Q; 2]); ("inc", [3%Q; 4])]%string [] [])]] /\
  postprocess_getparams (list Q) Q (map (fun x => x * 10)%Q) (map (fun x => x * 100)%Q) ex_fit ["sig"; "inc"]%string [] [] true true =
    Ok ([("sig", map (fun x => x * 10)%Q [1%Q; 2]); ("inc", map (fun x => x * 100)%Q [3%Q; 4])]%string, []).
Proof. split; reflexivity. Qed.

(** ** C109 export functions *)
(** as long as no export function returns a number, all fits are exported alike *)
Theorem C109_every_fit : forall Col Val to_dB to_degree set_indexer lower params metrics fs sd ideg files,
  NoDup (keys fs) ->
  set_indexer = true \/ (forall k, In k params -> ~ In k contributions) ->
  Forall (Forall (fun nf => let fit := snd nf in
    NoDup (keys (f_defdict Col Val fit)) /\
    (forall k, In k params -> exists p, part_of Col Val fs fit k p) /\
    (forall k, In k params -> ~ scalar Col Val fs fit k) /\
    (forall n m, In (n, m) metrics -> exists v, metric_value Col Val lower fit fs n m = Ok v))) files ->
  Forall2 (fun file out => exists ts, out = Ok ts /\
    Forall2 (fun nf nt => fst nt = fst nf /\ holds Col Val fs (snd nf) (fun k => In k params) (snd nt)) file ts)
    files (export_data_to_HDF Col Val to_dB to_degree set_indexer lower params metrics fs sd ideg files).
Proof.
  intros Col Val to_dB to_degree si lower params metrics fs sd ideg files Hfs Hset Hall.
  unfold export_data_to_HDF. rewrite request. set (ps := without contributions (nodup string_dec params)).
  set (mk := filter (fun k => inb string_dec k ["tot"; "surf"; "vol"; "inter"]%string) (nodup string_dec params)).
  assert (Ips : forall k, In k ps <-> In k params /\ ~ In k contributions).
  { intros k. unfold ps. rewrite in_without, nodup_In. tauto. }
  assert (Imk : forall k, In k mk <-> In k params /\ In k contributions).
  { intros k. unfold mk. rewrite filter_In, nodup_In, inb_iff. reflexivity. }
  assert (Eq : forall k, In k ps \/ In k mk <-> In k params).
  { intros k. rewrite Ips, Imk. destruct (in_dec string_dec k contributions); tauto. }
  assert (Nps : NoDup ps) by (unfold ps; apply without_nodup, NoDup_nodup).
  assert (Nmk : NoDup mk) by (unfold mk; apply NoDup_filter, NoDup_nodup).
  assert (Hset' : si = true \/ mk = []).
  { destruct Hset as [Hs|Hs]; [left; exact Hs|right]. unfold mk. apply filter_none. intros k Hk.
    apply nodup_In in Hk. apply inb_neg. exact (Hs k Hk). }
  clearbody ps mk.
  assert (File : forall file, Forall (fun nf => let fit := snd nf in
    NoDup (keys (f_defdict Col Val fit)) /\
    (forall k, In k params -> exists p, part_of Col Val fs fit k p) /\
    (forall k, In k params -> ~ scalar Col Val fs fit k) /\
    (forall n m, In (n, m) metrics -> exists v, metric_value Col Val lower fit fs n m = Ok v)) file ->
    exists ts, export_file Col Val to_dB to_degree si lower mk metrics fs false false ps file = (ps, Ok ts) /\
      Forall2 (fun nf nt => fst nt = fst nf /\ holds Col Val fs (snd nf) (fun k => In k params) (snd nt)) file ts).
  { induction 1 as [|[n fit] file (Hd & Hp & Hs & Hm) _ IH]; [exists []; split; [reflexivity|constructor]|].
    cbn [snd] in *. destruct (metric_mapM Col Val lower fit fs metrics Hm) as [mvals Em].
    destruct (hdf_export_holds Col Val to_dB to_degree si lower mk metrics mvals fs ps fit) as (t & E & H & _); auto.
    - intros k Hk. apply Imk in Hk. tauto.
    - intros k Hk. apply Ips in Hk. tauto.
    - intros k Hk. apply Hp, Eq, Hk.
    - rewrite (xs_none Col Val fit fs ps Hfs) in E.
      + cbn [keys map] in E. rewrite without_nil in E. destruct IH as (ts & E2 & F).
        exists ((n, t) :: ts). cbn [export_file]. rewrite E, E2. cbn [bind]. split; [reflexivity|].
        constructor; [|exact F]. split; [reflexivity|].
        destruct H as (H1 & H2 & H3 & H4). split; [exact H1|]. split; [exact H2|].
        split; intros; [rewrite H3, Eq|rewrite H4, Eq]; reflexivity.
      + intros k Hk. apply Ips in Hk. tauto.
      + intros k Hk. apply Hs, Eq. left; exact Hk. }
  induction Hall as [|file files Hf _ IH]; cbn [export_files]; [constructor|].
  destruct (File file Hf) as (ts & E & F). rewrite E. constructor; [exists ts; split; [reflexivity|exact F]|exact IH].
Qed.
Print Assumptions C109_every_fit.

(** a parameter whose export function returns a number is exported for the
    first fit only: it is missing for the other configurations of the same
    file and for all other files *)
Theorem C109_scalar_once_refuted : forall Col Val to_dB to_degree set_indexer lower params metrics fs sd ideg name fit more files key t ts outs,
  NoDup (keys fs) -> In key params -> scalar Col Val fs fit key ->
  export_data_to_HDF Col Val to_dB to_degree set_indexer lower params metrics fs sd ideg (((name, fit) :: more) :: files)
    = Ok ((name, t) :: ts) :: outs ->
  Forall (fun nt => absent Col Val key (snd nt)) ts /\
  Forall (fun out => forall ts', out = Ok ts' -> Forall (fun nt => absent Col Val key (snd nt)) ts') outs.
Proof.
  intros Col Val to_dB to_degree si lower params metrics fs sd ideg name fit more files key t ts outs Hfs Hp [Hc (f & v & Hf & Ef)].
  unfold export_data_to_HDF. rewrite request. set (ps := without contributions (nodup string_dec params)).
  set (mk := filter (fun k => inb string_dec k ["tot"; "surf"; "vol"; "inter"]%string) (nodup string_dec params)).
  assert (Hm : ~ In key mk) by (unfold mk; rewrite filter_In, inb_iff; intros [_ Q]; contradiction).
  cbn [export_files export_file].
  assert (K : forall t0, snd (hdf_export Col Val to_dB to_degree si lower mk metrics fs false false ps fit) = Ok t0 ->
    ~ In key (fst (hdf_export Col Val to_dB to_degree si lower mk metrics fs false false ps fit))).
  { intros t0. unfold hdf_export. destruct (model_columns Col Val si fit mk) as [aux0|]; [|discriminate].
    assert (R : forall fs' ps' st aux, NoDup (keys fs') -> has key f fs' ->
      (exists r, snd (run_xfuncs Col Val fit fs' ps' st aux) = Ok r) ->
      ~ In key (fst (run_xfuncs Col Val fit fs' ps' st aux))).
    { clear - Ef. induction fs' as [|[k g] fs' IH]; intros ps' st aux Hn Hk [r Er]; [discriminate|].
      inversion Hn; subst. unfold has in Hk. cbn [dget] in Hk. cbn [run_xfuncs] in *.
      destruct (string_dec key k) as [->|N].
      - inversion Hk; subst. destruct (inb string_dec k ps') eqn:I.
        + rewrite Ef in *. apply (run_xfuncs_absent Col Val fit k fs'). rewrite in_set_remove. tauto.
        + apply inb_neg in I. apply (run_xfuncs_absent Col Val fit k fs'). exact I.
      - destruct (inb string_dec k ps'); [|apply IH; eauto].
        destruct (g fit) as [[w|c]|]; [apply IH; eauto|apply IH; eauto|discriminate]. }
    specialize (R fs ps [] aux0 Hfs Hf). destruct (run_xfuncs Col Val fit fs ps [] aux0) as [ps1 r]. cbn [fst snd] in *.
    intros E. apply R. destruct r as [r|]; [eauto|discriminate]. }
  destruct (hdf_export Col Val to_dB to_degree si lower mk metrics fs false false ps fit) as [ps1 r]. cbn [fst snd] in K.
  destruct r as [t1|e]; [|discriminate]. specialize (K t1 eq_refl).
  destruct (file_absent Col Val to_dB to_degree si lower mk metrics fs false false key Hm more ps1 K) as [A B].
  destruct (export_file Col Val to_dB to_degree si lower mk metrics fs false false ps1 more) as [ps2 r2]. cbn [fst snd] in *.
  destruct r2 as [ts2|]; cbn [bind]; intros Q; inversion Q; subst.
  split; [apply B; reflexivity|]. apply files_absent; assumption.
Qed.
Print Assumptions C109_scalar_once_refuted.

(** an export function for a model contribution is not called *)
Theorem C109_contribution_refuted : forall Col Val to_dB to_degree lower fs name fit key m c files,
  NoDup (keys fs) -> NoDup (keys (f_defdict Col Val fit)) -> In key contributions ->
  f_model _ _ fit = Ok m -> has key c m ->
  exists t outs,
    export_data_to_HDF Col Val to_dB to_degree true lower [key] [] fs false false ([(name, fit)] :: files) = Ok [(name, t)] :: outs /\
    forall d, In (key, d) (t_dynamic _ _ t) <-> d = c.
Proof.
  intros Col Val to_dB to_degree lower fs name fit key m c files Hfs Hd Hk Em Hc.
  destruct (C107_requested Col Val to_dB to_degree true lower [key] [] fs false false name fit files) as (t & outs & E & _ & _ & H & _); auto.
  - intros k [<-|[]]. eexists. eapply part_model; eassumption.
  - intros n x [].
  - exists t, outs. split; [exact E|]. intros d. rewrite H. split.
    + intros [_ P]. inversion P as [m' c' _ Em' Hc'|f v N|f c' N|p N]; try contradiction.
      unfold has in *. subst. assert (m' = m) by congruence. subst. congruence.
    + intros ->. split; [left; reflexivity|]. eapply part_model; eassumption.
Qed.
Print Assumptions C109_contribution_refuted.

Example C109_example :
  let fs := [("score", fun _ => Ok (XVal (list Q) Q 42%Q)); ("tot", fun _ => Ok (XCol _ _ []))]%string in
  scalar _ _ fs ex_fit "score" /\
  ex_export true (fun s => s) ["sig"; "score"; "tot"]%string [] fs false false
    [[("a", ex_fit); ("b", ex_fit)]; [("a", ex_fit)]]%string =
  [Ok [("a", mktables _ _ [("sig", [1%Q; 2]); ("tot", [11%Q; 12])] [("score", 42%Q)] []);
       ("b", mktables _ _ [("sig", [1%Q; 2]); ("tot", [11%Q; 12])] [] [])];
   Ok [("a", mktables _ _ [("sig", [1%Q; 2]); ("tot", [11%Q; 12])] [] [])]]%string.
Proof.
  split; [|reflexivity]. split; [cbn; intuition discriminate|]. do 2 eexists. split; reflexivity.
Qed.

(** ** C110 metrics *)
Theorem C110_metrics : forall Col Val to_dB to_degree set_indexer lower params metrics fs sd ideg files,
  exported_all Col Val (fun fit t =>
    Forall2 (fun nm nv => fst nv = fst nm /\
      match snd nm with
      | MThree m p1 p2 => exists v, f_metric _ _ fit p1 p2 (lower m) = Ok v /\ snd nv = XVal _ _ v
      | MCustom => forall f, has (fst nm) f fs -> f fit = Ok (snd nv)
      end) metrics (t_metrics _ _ t))
    files (export_data_to_HDF Col Val to_dB to_degree set_indexer lower params metrics fs sd ideg files).
Proof.
  intros Col Val to_dB to_degree si lower params metrics fs sd ideg files. unfold export_data_to_HDF.
  apply files_all. intros ps fit t E. apply hdf_metrics in E. revert E. generalize (t_metrics _ _ t) as ms.
  induction metrics as [|[n m] l IH]; intros ms E; cbn [mapM] in E; [inversion E; constructor|].
  cbn [fst snd] in E. destruct (metric_value Col Val lower fit fs n m) as [v|] eqn:Ev; cbn [bind] in E; [|discriminate].
  destruct (mapM _ l) as [ms'|] eqn:El; cbn [bind] in E; [|discriminate]. inversion E; subst.
  constructor; [|apply IH; reflexivity]. cbn [fst snd]. split; [reflexivity|].
  unfold metric_value in Ev. destruct m as [m p1 p2|].
  - destruct (f_metric _ _ fit p1 p2 (lower m)) as [x|]; cbn [bind] in Ev; [|discriminate]. inversion Ev; eauto.
  - intros f Hf. unfold has in Hf. rewrite Hf in Ev. exact Ev.
Qed.
Print Assumptions C110_metrics.

(** a metric that cannot be evaluated loses the file *)
Theorem C110_bad_metric : forall Col Val to_dB to_degree set_indexer lower params metrics fs sd ideg name fit more files n m,
  In (n, m) metrics -> (forall v, metric_value Col Val lower fit fs n m <> Ok v) ->
  exists e outs,
    export_data_to_HDF Col Val to_dB to_degree set_indexer lower params metrics fs sd ideg (((name, fit) :: more) :: files) = Err e :: outs.
Proof.
  intros Col Val to_dB to_degree si lower params metrics fs sd ideg name fit more files n m Hi Hb.
  unfold export_data_to_HDF. rewrite request. cbn [export_files export_file].
  match goal with |- context [hdf_export _ _ _ _ _ _ ?mk _ _ _ _ ?ps _] =>
    assert (H := hdf_metrics Col Val to_dB to_degree si lower mk metrics fs false false ps fit);
    destruct (hdf_export Col Val to_dB to_degree si lower mk metrics fs false false ps fit) as [ps1 r] end.
  cbn [snd] in H. destruct r as [t|e]; [|exists e; eexists; reflexivity]. exfalso.
  specialize (H t eq_refl). revert H. generalize (t_metrics _ _ t). clear - Hi Hb.
  induction metrics as [|[n' m'] l IH]; intros ms E; [destruct Hi|]. cbn [mapM fst snd] in E.
  destruct Hi as [Q|Hi].
  - inversion Q; subst. destruct (metric_value Col Val lower fit fs n m) as [v|] eqn:Ev; [exact (Hb v eq_refl)|discriminate].
  - destruct (metric_value Col Val lower fit fs n' m'); cbn [bind] in E; [|discriminate].
    destruct (mapM _ l) eqn:El; cbn [bind] in E; [|discriminate]. exact (IH Hi _ eq_refl).
Qed.
Print Assumptions C110_bad_metric.

Example C110_example :
  let fs := [("X", fun f => Ok (XVal (list Q) Q 5%Q))]%string in
  ex_export true (fun s => s) ["sig"]%string [("R", MThree "pearson" "sig" "tot"); ("X", MCustom)]%string fs false false
    [[("a"%string, ex_fit)]] =
  [Ok [("a", mktables _ _ [("sig", [1%Q; 2])] [] [("R", XVal _ _ 0%Q); ("X", XVal _ _ 5%Q)])]]%string.
Proof. reflexivity. Qed.
