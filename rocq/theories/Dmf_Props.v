(** C208-C210: dump-files of a processing run, the processing class. *)
From Coq Require Import List ZArith Bool String Lia.
From Verif Require Import Base Base_Proofs Str_Model Str_Proofs Rdr_Model Rdr_Spec Rdr_Proofs Ids_Model Dmf_Model Dmf_Spec.
Import ListNotations.
Local Open Scope string_scope.
Local Open Scope list_scope.
Import Ascii.

Lemma own : forall X dp (a : rarg X), has_char "/"%char (a_ID a) = false -> dump_file dp a = own_file dp (a_ID a).
Proof.
  intros X dp a H. unfold dump_file, filename, feature_id. rewrite pjoin_rel by (now apply dump_file_name). unfold dump_path, sub, pjoin, own_file. cbn [absolute parts]. now rewrite <- app_assoc.
Qed.
Lemma own_parent : forall dp ID, parent (own_file dp ID) = Path (absolute dp) (parts dp ++ ["dumps"]).
Proof. intros dp ID. unfold parent, own_file. cbn [absolute parts]. f_equal. rewrite removelast_app by discriminate. reflexivity. Qed.
Lemma app_inv_r : forall s t u : string, (s ++ u)%string = (t ++ u)%string -> s = t.
Proof.
  assert (L : forall s t : string, String.length (s ++ t)%string = (String.length s + String.length t)%nat) by (induction s; cbn; auto).
  induction s as [|c s IH]; intros [|d t] u E; cbn in E; try reflexivity.
  - exfalso. assert (X := f_equal String.length E). cbn in X. rewrite L in X. lia.
  - exfalso. assert (X := f_equal String.length E). cbn in X. rewrite L in X. lia.
  - inversion E. f_equal. eapply IH; eauto.
Qed.
Lemma own_inj : forall dp i j, own_file dp i = own_file dp j -> i = j.
Proof. intros dp i j E. inversion E as [H]. apply app_inv_head in H. inversion H as [H2]. now apply app_inv_r in H2. Qed.

Section P.
Context {X Ds R : Type}.
Variable dirs : path -> bool.
Variable dp : path.
Variable reader : files (X:=X) (R:=R) -> rarg X -> Ds + list exarg.
Variable perform : Ds -> R + list exarg.
Variable kw : opts.
Notation evalfunc := (evalfunc dirs dp reader perform kw).
Notation process := (process dirs dp reader perform kw).

(** ** C208 *)

(** features with different IDs without slashes: each result is stored and each fit is dumped to its own file in the
    folder, all other files stay as they are *)
Theorem C208_own_file : forall fs l, Forall (fun a => has_char "/"%char (a_ID a) = false) l -> NoDup (map a_ID l) -> prepared dirs dp -> all_fitted reader perform l ->
  let out := process true fs l in
  Forall2 (fun a x => exists r, x = RetFit (mkrow (index_of a) a kw r) /\ dget path_dec (own_file dp (a_ID a)) (fst out) = Some (mkfit (a_ID a) a r)) l (snd out) /\
  forall p, (forall a, In a l -> p <> own_file dp (a_ID a)) -> dget path_dec p (fst out) = dget path_dec p fs.
Proof.
  intros fs l S ND [P1 P2] A. revert fs S ND A. induction l as [|a l IH]; intros fs S ND A; cbn [Dmf_Model.process]; [cbn; auto|].
  inversion S as [|? ? Sa Sl]; subst. inversion ND as [|? ? Na Nl]; subst. destruct (A fs a (or_introl eq_refl)) as (ds & r & E1 & E2).
  unfold Dmf_Model.evalfunc. rewrite E1, E2. unfold dump. rewrite own by exact Sa. rewrite P2, own_parent, P1. cbv zeta.
  set (fs1 := dset path_dec (own_file dp (a_ID a)) (mkfit (feature_id a) a r) fs).
  destruct (IH fs1 Sl Nl (fun g b Hb => A g b (or_intror Hb))) as [H1 H2]. destruct (process true fs1 l) as [fs2 xs] eqn:EP. cbn [fst snd] in *. split.
  - constructor; [|exact H1]. exists r. split; [reflexivity|]. rewrite H2.
    + unfold fs1. now rewrite dget_dset_same.
    + intros b Hb E. apply own_inj in E. apply Na. rewrite E. now apply in_map.
  - intros p Hp. rewrite H2 by (intros b Hb; apply Hp; now right). unfold fs1. apply dget_dset_other. apply Hp. now left.
Qed.

(** ... and loading by the ID gives this fit *)
Theorem C208_loaded : forall fs l rnd entries a, Forall (fun a => has_char "/"%char (a_ID a) = false) l -> NoDup (map a_ID l) -> prepared dirs dp -> all_fitted reader perform l ->
  In a l -> endswith ".dump" (a_ID a) = false ->
  exists r, load_fit_dumps (fun p => dget path_dec p (fst (process true fs l))) rnd (sub dp "dumps") entries (IStr (a_ID a)) false = Loaded (mkfit (a_ID a) a r) None.
Proof.
  intros fs l rnd entries a S ND P A Ha He. pose proof (proj1 (C208_own_file fs l S ND P A)) as F. cbv zeta in F.
  assert (G : exists r, dget path_dec (own_file dp (a_ID a)) (fst (process true fs l)) = Some (mkfit (a_ID a) a r)).
  { revert F. generalize (fst (process true fs l)) as g. generalize (snd (process true fs l)) as xs. clear -Ha. induction l as [|b l IH]; [destruct Ha|]. intros xs g F. inversion F as [|? ? ? ? (r & _ & E) F2]; subst. destruct Ha as [->|Ha]; [eauto|eapply IH; eauto]. }
  destruct G as (r & G). exists r. unfold load_fit_dumps, dump_name. rewrite He. unfold load_path.
  assert (S1 : has_char "/"%char (a_ID a) = false) by (rewrite Forall_forall in S; now apply S).
  pose proof (own X dp a S1) as O. unfold dump_file, filename, feature_id, dump_path in O. rewrite O, G. reflexivity.
Qed.

(** without dump_fit nothing is written and all results are stored, whatever the IDs are *)
Theorem C208_no_dump : forall fs l, all_fitted reader perform l ->
  fst (process false fs l) = fs /\ Forall2 (fun a x => exists r, x = RetFit (mkrow (index_of a) a kw r)) l (snd (process false fs l)).
Proof.
  intros fs l. revert fs. induction l as [|a l IH]; intros fs A; cbn [Dmf_Model.process]; [cbn; auto|].
  destruct (A fs a (or_introl eq_refl)) as (ds & r & E1 & E2). unfold Dmf_Model.evalfunc. rewrite E1, E2.
  destruct (IH fs (fun g b Hb => A g b (or_intror Hb))) as [H1 H2]. destruct (process false fs l) as [fs2 xs]. cbn [fst snd] in *. split; [exact H1|]. constructor; [|exact H2]. exists r. reflexivity.
Qed.

(** an ID with a slash for which there is no folder: with dump_fit the fit is made, but neither the dump-file nor the
    result exists *)
Theorem C208_lost_refuted : forall fs a ds r, reader fs a = inl ds -> perform ds = inl r -> dirs (parent (dump_file dp a)) = false ->
  evalfunc true fs a = (fs, RetNone) /\ evalfunc false fs a = (fs, RetFit (mkrow (index_of a) a kw r)).
Proof.
  intros fs a ds r E1 E2 D. unfold Dmf_Model.evalfunc. rewrite E1, E2. unfold dump. rewrite D. split; [|reflexivity]. destruct (dirs (dump_file dp a)); reflexivity.
Qed.

(** an ID that is an absolute path: the dump-file is outside of the folder of the run, at the same place for all runs *)
Theorem C208_outside_refuted : forall fs a ds r, startswith "/" (a_ID a) = true -> reader fs a = inl ds -> perform ds = inl r ->
  let p := parse (a_ID a ++ ".dump")%string in dirs p = false -> dirs (parent p) = true ->
  dget path_dec p (fst (evalfunc true fs a)) = Some (mkfit (a_ID a) a r) /\ forall q, q <> p -> dget path_dec q (fst (evalfunc true fs a)) = dget path_dec q fs.
Proof.
  intros fs a ds r H E1 E2 p D1 D2. assert (EP : dump_file dp a = p).
  { unfold dump_file, filename, feature_id, pjoin. fold p. replace (absolute p) with true; [reflexivity|]. unfold p, parse. cbn [absolute]. destruct (a_ID a) as [|c s]; [discriminate|].
    replace c with "/"%char; [destruct s; reflexivity|]. destruct c as [[] [] [] [] [] [] [] []]; try discriminate H. reflexivity. }
  unfold Dmf_Model.evalfunc. rewrite E1, E2, EP. unfold dump. rewrite D1, D2. cbn [fst]. split; [apply dget_dset_same|]. intros q Hq. now apply dget_dset_other.
Qed.

(** IDs that are different but have the same text (1 and "1"): the later fit replaces the file of the earlier one *)
Theorem C208_replaced_refuted : forall fs a b da ra db rb, a_ID a = a_ID b -> has_char "/"%char (a_ID a) = false -> prepared dirs dp ->
  (forall g, reader g a = inl da) -> perform da = inl ra -> (forall g, reader g b = inl db) -> perform db = inl rb ->
  dget path_dec (own_file dp (a_ID a)) (fst (process true fs [a; b])) = Some (mkfit (a_ID b) b rb) /\
  snd (process true fs [a; b]) = [RetFit (mkrow (index_of a) a kw ra); RetFit (mkrow (index_of b) b kw rb)].
Proof.
  intros fs a b da ra db rb E S [P1 P2] A1 A2 B1 B2. assert (Sb : has_char "/"%char (a_ID b) = false) by congruence.
  pose proof (own X dp a S) as Oa. pose proof (own X dp b Sb) as Ob. rewrite <- E in Ob.
  assert (Ea : forall g, evalfunc true g a = (dset path_dec (own_file dp (a_ID a)) (mkfit (a_ID a) a ra) g, RetFit (mkrow (index_of a) a kw ra))).
  { intros g. unfold Dmf_Model.evalfunc. rewrite A1, A2, Oa. unfold dump. now rewrite P2, own_parent, P1. }
  assert (Eb : forall g, evalfunc true g b = (dset path_dec (own_file dp (a_ID a)) (mkfit (a_ID b) b rb) g, RetFit (mkrow (index_of b) b kw rb))).
  { intros g. unfold Dmf_Model.evalfunc. rewrite B1, B2, Ob. unfold dump. now rewrite P2, own_parent, P1. }
  cbn [Dmf_Model.process]. rewrite Ea, Eb. cbn [fst snd]. split; [apply dget_dset_same|reflexivity].
Qed.

(** ** C209 *)

(** if the reader reports that the file already exists, the stored fit is returned, no file is changed *)
Theorem C209_taken : forall fs a ex d f, reader fs a = inr ex -> tagged "rt1_skip" ex = false -> tagged "rt1_file_already_exists" ex = true ->
  dget path_dec (dump_file dp a) fs = Some f ->
  evalfunc d fs a = (fs, RetFit (mkrow (KName (f_ID f)) (f_arg f) [] (f_res f))).
Proof.
  intros fs a ex d f E1 T1 T2 G. unfold Dmf_Model.evalfunc. rewrite E1. unfold except_row, exceptfunc. rewrite T1, T2, G. reflexivity.
Qed.

(** but under its name, not under the number that was assigned to the argument, with the reader_arg of the earlier run and
    without the export options: different from what was stored when the feature was fitted *)
Theorem C209_index_refuted : forall fs a b z z' ex d r,
  a_num a = Some z -> a_num b = Some z' -> a_ID a = a_ID b -> has_char "/"%char (a_ID a) = false ->
  dget path_dec (own_file dp (a_ID a)) fs = Some (mkfit (a_ID a) a r) ->
  reader fs b = inr ex -> tagged "rt1_skip" ex = false -> tagged "rt1_file_already_exists" ex = true ->
  exists w, evalfunc d fs b = (fs, RetFit w) /\ r_res w = r /\ r_arg w = a /\ r_key w = KName (a_ID a) /\ r_key w <> index_of b /\ r_key w <> index_of a /\ r_opts w = [].
Proof.
  intros fs a b z z' ex d r Na Nb E S G E1 T1 T2. rewrite <- (own X dp a S) in G. assert (EF : dump_file dp b = dump_file dp a) by (unfold dump_file, filename, feature_id; now rewrite E).
  rewrite <- EF in G. eexists. split; [eapply C209_taken; eauto|]. cbn. unfold index_of. rewrite Na, Nb. repeat split; discriminate.
Qed.

(** without a file the feature is skipped *)
Theorem C209_missing : forall fs a ex d, reader fs a = inr ex -> tagged "rt1_skip" ex = false -> tagged "rt1_file_already_exists" ex = true ->
  dget path_dec (dump_file dp a) fs = None -> evalfunc d fs a = (fs, RetNone).
Proof.
  intros fs a ex d E1 T1 T2 G. unfold Dmf_Model.evalfunc. rewrite E1. unfold except_row, exceptfunc. rewrite T1, T2, G. reflexivity.
Qed.
End P.
Print Assumptions C208_own_file.
Print Assumptions C208_loaded.
Print Assumptions C208_no_dump.
Print Assumptions C208_lost_refuted.
Print Assumptions C208_outside_refuted.
Print Assumptions C208_replaced_refuted.
Print Assumptions C209_taken.
Print Assumptions C209_index_refuted.
Print Assumptions C209_missing.

Example C208_example :
  let dp := Path true ["save"; "run"] in
  let dirs := fun p => if path_dec p (Path true ["save"; "run"; "dumps"]) then true else if path_dec p (Path true ["data"]) then true else false in
  let reader := fun (_ : files (X:=nat) (R:=nat)) (a : rarg nat) => inl (a_more a) : nat + list exarg in
  let perform := fun d => inl (d * 10) : nat + list exarg in
  let out := process dirs dp reader perform [] true [] [mka "A" (Some 0%Z) 3; mka "B" (Some 1%Z) 4; mka "x/y" (Some 2%Z) 5; mka "/data/C" (Some 3%Z) 6] in
  map fst (fst out) = [Path true ["save"; "run"; "dumps"; "A.dump"]; Path true ["save"; "run"; "dumps"; "B.dump"]; Path true ["data"; "C.dump"]] /\
  map (fun x => match x with RetFit w => Some (r_res w) | _ => None end) (snd out) = [Some 30; Some 40; None; Some 60].
Proof. split; reflexivity. Qed.
Example C209_example :
  let dp := Path true ["run"] in
  let fs : files := [(Path true ["run"; "dumps"; "A.dump"], mkfit "A" (mka "A" (Some 4%Z) 3) 30)] in
  let reader := fun (g : files (X:=nat) (R:=nat)) (a : rarg nat) => (match dget path_dec (dump_file dp a) g with Some _ => inr [XStr "rt1_file_already_exists"] | None => inl (a_more a) end) : nat + list exarg in
  snd (evalfunc (fun _ => false) dp reader (fun d => inl (d * 10)) [("save_data", false)] false fs (mka "A" (Some 7%Z) 3)) =
  RetFit (mkrow (KName "A") (mka "A" (Some 4%Z) 3) [] 30).
Proof. reflexivity. Qed.

(** ** C210 *)
Section C.
Context {O M : Type}.

(** when the object can be made *)
Theorem C210_accepts : forall (kw : dict string (aval O M)),
  (exists o, config_init kw = Ok o) <->
  ~ In "self" (keys kw) /\ forall s d, dget string_dec "save_path" kw = Some s -> dget string_dec "dumpfolder" kw = Some d ->
    (exists p q, as_path s = Ok p /\ as_path d = Ok q).
Proof.
  intros kw. unfold config_init. destruct (inb string_dec "self" (keys kw)) eqn:I.
  - apply inb_iff in I. split; [intros [o E]; discriminate|tauto].
  - apply inb_false in I. destruct (dget string_dec "save_path" kw) as [s|] eqn:Es, (dget string_dec "dumpfolder" kw) as [d|] eqn:Ed; cbn [bind].
    + destruct (as_path s) as [p|] eqn:Ep, (as_path d) as [q|] eqn:Eq; cbn [bind]; split; intros H.
      all: try (destruct H as [o H]; discriminate). all: try (split; [exact I|]; intros s' d' H1 H2; inversion H1; inversion H2; subst; eauto).
      all: try (eexists; reflexivity). all: destruct H as [_ H]; destruct (H s d eq_refl eq_refl) as (p' & q' & H1 & H2); congruence.
    + split; [intros _; split; [exact I|discriminate]|intros _; eexists; reflexivity].
    + split; [intros _; split; [exact I|discriminate]|intros _; eexists; reflexivity].
    + split; [intros _; split; [exact I|discriminate]|intros _; eexists; reflexivity].
Qed.

Lemma fold_get : forall (kw : dict string (aval O M)) base k, NoDup (keys kw) ->
  dget string_dec k (fold_left (fun d e => dset string_dec (fst e) (snd e) d) kw base) = match dget string_dec k kw with Some v => Some v | None => dget string_dec k base end.
Proof.
  induction kw as [|[q v] r IH]; intros base k ND; [reflexivity|]. inversion ND as [|? ? Nq Nr]; subst. cbn [fold_left fst snd]. rewrite IH by exact Nr. cbn [dget].
  destruct (string_dec q k) as [->|N].
  - try (destruct (string_dec k k); [|congruence]). destruct (dget string_dec k r) eqn:E; [|apply dget_dset_same]. exfalso. apply Nq. apply (dget_in_keys string_dec). rewrite E. discriminate.
  - try (destruct (string_dec k q); [congruence|]). destruct (dget string_dec k r); [reflexivity|]. now apply dget_dset_other.
Qed.
(** every process-spec is an attribute with its value, whatever its name is *)
Theorem C210_specs : forall cls (kw : dict string (aval O M)) o k v, NoDup (keys kw) -> config_init kw = Ok o -> dget string_dec k kw = Some v -> config_get cls o k = Ok v.
Proof.
  intros cls kw o k v ND E G. unfold config_init in E. destruct (inb string_dec "self" (keys kw)); [discriminate|].
  match type of E with bind ?b _ = _ => destruct b as [base|]; [|discriminate] end. cbn [bind] in E. inversion E. unfold config_get. rewrite fold_get by exact ND. rewrite G. reflexivity.
Qed.
(** the paths are those of save_path and dumpfolder, or None if these are not given *)
Theorem C210_paths : forall cls (kw : dict string (aval O M)) o, NoDup (keys kw) -> config_init kw = Ok o -> (forall k f, In (k, f) path_attrs -> ~ In k (keys kw)) ->
  forall k f, In (k, f) path_attrs ->
  config_get cls o k = Ok match dget string_dec "save_path" kw, dget string_dec "dumpfolder" kw with
    | Some s, Some d => match as_path s, as_path d with Ok p, Ok q => APath (sub (pjoin p q) f) | _, _ => ANo end
    | _, _ => ANo end.
Proof.
  intros cls kw o ND E H k f I. unfold config_init in E. destruct (inb string_dec "self" (keys kw)); [discriminate|].
  assert (N : dget string_dec k kw = None) by (apply dget_none; now apply (H k f)).
  destruct (dget string_dec "save_path" kw) as [s|], (dget string_dec "dumpfolder" kw) as [d|]; cbn [bind] in E.
  - destruct (as_path s) as [p|]; [|discriminate]. cbn [bind] in E. destruct (as_path d) as [q|]; [|discriminate]. cbn [bind] in E. inversion E.
    unfold config_get. rewrite fold_get, N by exact ND. cbn in I. destruct I as [I|[I|[I|[]]]]; inversion I; subst; reflexivity.
  - inversion E. unfold config_get. rewrite fold_get, N by exact ND. cbn in I. destruct I as [I|[I|[I|[]]]]; inversion I; subst; reflexivity.
  - inversion E. unfold config_get. rewrite fold_get, N by exact ND. cbn in I. destruct I as [I|[I|[I|[]]]]; inversion I; subst; reflexivity.
  - inversion E. unfold config_get. rewrite fold_get, N by exact ND. cbn in I. destruct I as [I|[I|[I|[]]]]; inversion I; subst; reflexivity.
Qed.
(** functions of the class whose names are not those of process-specs are used *)
Theorem C210_functions : forall cls (kw : dict string (aval O M)) o k m, NoDup (keys kw) -> config_init kw = Ok o -> ~ In k (keys kw) -> ~ In k (map fst path_attrs) ->
  dget string_dec k cls = Some (AMethod m) -> call cls o k = Ok m.
Proof.
  intros cls kw o k m ND E N1 N2 G. unfold config_init in E. destruct (inb string_dec "self" (keys kw)); [discriminate|].
  assert (N : dget string_dec k kw = None) by (now apply dget_none).
  assert (K : dget string_dec k o = None).
  { destruct (dget string_dec "save_path" kw) as [s|], (dget string_dec "dumpfolder" kw) as [d|]; cbn [bind] in E;
      try (destruct (as_path s) as [p|]; [|discriminate]; cbn [bind] in E; destruct (as_path d) as [q|]; [|discriminate]; cbn [bind] in E);
      inversion E; rewrite fold_get, N by exact ND; apply dget_none; intros I; apply N2; cbn in I |- *; intuition. }
  unfold call, config_get. rewrite K, G. reflexivity.
Qed.
(** a process-spec with the name of a function (reader, preprocess, exceptfunc, get_names_ids, ...) hides it *)
Theorem C210_hidden_refuted : forall cls (kw : dict string (aval O M)) o k v m, NoDup (keys kw) -> config_init kw = Ok o ->
  dget string_dec k cls = Some (AMethod m) -> dget string_dec k kw = Some v -> (forall m', v <> AMethod m') -> call cls o k = Err TypeError.
Proof.
  intros cls kw o k v m ND E G1 G2 H. unfold call. rewrite (C210_specs cls kw o k v ND E G2). cbn [bind]. destruct v; try reflexivity. exfalso. eapply H. reflexivity.
Qed.
End C.
Print Assumptions C210_accepts.
Print Assumptions C210_specs.
Print Assumptions C210_paths.
Print Assumptions C210_functions.
Print Assumptions C210_hidden_refuted.

Example C210_example :
  let kw : dict string (aval nat nat) := [("save_path", APath (Path true ["save"])); ("dumpfolder", AStr "run"); ("preprocess", AStr "none"); ("n", AObj 3)] in
  exists o, config_init kw = Ok o /\ call [("reader", AMethod 1); ("preprocess", AMethod 2)] o "reader" = Ok 1 /\ call [("reader", AMethod 1); ("preprocess", AMethod 2)] o "preprocess" = Err TypeError /\
  config_get [] o "rt1_procsesing_respath" = Ok (APath (Path true ["save"; "run"; "results"])).
Proof. eexists. split; [reflexivity|]. repeat split. Qed.
