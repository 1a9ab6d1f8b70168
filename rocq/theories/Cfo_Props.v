(** C159: the fit-object of a config-file *)
From Coq Require Import ZArith QArith Bool Arith String Ascii List Permutation Lia.
From Verif Require Import Base Base_Proofs Str_Model Con_Model Cfg_Model Cfg_Spec Ids_Model Mf_Model Mf_Spec Mf_Proofs Mf_Props Cfo_Model Cfo_Spec.
Import ListNotations.
Local Open Scope string_scope.
Local Open Scope list_scope.

Lemma arg_setting kw k d : setting kw k d (arg kw k d).
Proof.
  unfold setting, arg. pose proof (dget_in_keys string_dec k kw) as H. pose proof (dget_none string_dec k kw) as H0. destruct (dget string_dec k kw) as [v|]; split; intros X; auto.
  - apply H0 in X. discriminate.
  - apply H in X. congruence.
Qed.
Lemma made backend cfg f : make_fits backend cfg = Ok f -> configured backend cfg f.
Proof.
  unfold make_fits. destruct (existsb _ passed); [discriminate|]. destruct (from_dict (c_defdict cfg)) as [dd|e] eqn:E; [|discriminate]. cbn [bind]. intros [= <-].
  constructor; cbn; try apply arg_setting; auto.
  - exists (arg (c_fits cfg) "lambda_backend" VNone). split; [apply arg_setting|]. destruct (arg _ _ _); split; congruence.
  - exists (arg (c_fits cfg) "ID" (VStr "RT1_fit")). split; [apply arg_setting|]. intros t -> I. cbn. unfold get_ID. now rewrite I.
Qed.
Lemma made_iff backend cfg : (exists f, make_fits backend cfg = Ok f) <->
  (exists dd, from_dict (c_defdict cfg) = Ok dd) /\ (forall k, In k passed -> ~ In k (keys (c_fits cfg))).
Proof.
  unfold make_fits. destruct (existsb _ passed) eqn:X.
  - split; [intros [f F]; discriminate|]. intros [_ H]. apply existsb_exists in X. destruct X as (k & I & M). exfalso. apply (H k I). apply (dget_in_keys string_dec). unfold dmem in M. destruct (dget string_dec k (c_fits cfg)); congruence.
  - split.
    + intros [f F]. split.
      * destruct (from_dict (c_defdict cfg)) as [dd|e]; [now exists dd|discriminate].
      * intros k I J. assert (E : existsb (fun k => dmem string_dec k (c_fits cfg)) passed = true); [|congruence]. apply existsb_exists. exists k. split; [exact I|]. apply (dget_in_keys string_dec) in J. unfold dmem. destruct (dget string_dec k (c_fits cfg)); congruence.
    + intros [[dd D] _]. rewrite D. cbn. eexists. reflexivity.
Qed.

Lemma add_config_ok m n i m' : add_config m n i = Ok m' <-> valid_name n /\ m' = mkmulti (m_names m ++ [n]) (dset string_dec n (Some i) (m_attrs m)) (dset Nat.eq_dec i n (m_cname m)).
Proof.
  unfold add_config, valid_name. destruct (str_isidentifier n); cbn [negb]; [|split; [discriminate|intros [[X _] _]; discriminate]].
  destruct (inb string_dec n mf_dict) eqn:E.
  - apply inb_iff in E. split; [discriminate|]. intros [[_ X] _]. tauto.
  - apply inb_false in E. split; [intros [= <-]; auto|intros [_ ->]; reflexivity].
Qed.

Section B.
Variables (pfloat : string -> option Q) (pint : string -> option Z) (backend : val).
Notation gc := (get_config pfloat pint).
(** the fit of one configuration *)
Definition fit_named ini (n : string) : res fits := do cfg <- gc ini (Some n); make_fits backend cfg.
Lemma build_inv ini names : forall m heap o, build pfloat pint backend ini names m heap = Ok o ->
  (forall n, In n names -> valid_name n) /\
  exists fs, Forall2 (fun n f => fit_named ini n = Ok f) names fs /\
    o = Multi (add_configs m (combine names (seq (List.length heap) (List.length names)))) (heap ++ fs).
Proof.
  induction names as [|n r IH]; intros m heap o; cbn [build].
  - intros [= <-]. split; [intros ? []|]. exists []. split; [constructor|]. cbn. now rewrite app_nil_r.
  - destruct (gc ini (Some n)) as [cfg|e] eqn:C; [|discriminate]. cbn [bind]. destruct (make_fits backend cfg) as [f|e] eqn:F; [|discriminate]. cbn [bind].
    destruct (add_config m n (List.length heap)) as [m'|e] eqn:A; [|discriminate]. cbn [bind]. intros B. apply IH in B. destruct B as (V & fs & H & ->).
    split; [intros k [<-|I]; [now apply add_config_ok in A|auto]|]. exists (f :: fs). split.
    + constructor; [|exact H]. unfold fit_named. now rewrite C.
    + rewrite <- app_assoc. cbn [app]. f_equal. cbn [List.length seq combine]. unfold add_configs at 2. cbn [fold_left fst snd]. rewrite A. rewrite app_length, Nat.add_1_r. reflexivity.
Qed.
Lemma build_total ini names : forall m heap, (forall n, In n names -> valid_name n /\ exists f, fit_named ini n = Ok f) -> exists o, build pfloat pint backend ini names m heap = Ok o.
Proof.
  induction names as [|n r IH]; intros m heap H; [eexists; reflexivity|]. cbn [build]. destruct (H n (or_introl eq_refl)) as [V [f F]]. unfold fit_named in F.
  destruct (gc ini (Some n)) as [cfg|e]; [|discriminate]. cbn [bind] in *. rewrite F. cbn [bind].
  rewrite (proj2 (add_config_ok m n (List.length heap) _) (conj V eq_refl)). cbn [bind]. apply IH. intros k I. apply H. now right.
Qed.
Lemma map_fst_combine {A B} (l : list A) (k : list B) : List.length l = List.length k -> map fst (combine l k) = l.
Proof. revert k. induction l as [|a l IH]; intros [|b k] H; try discriminate; [reflexivity|]. cbn in *. f_equal. apply IH. congruence. Qed.
Lemma map_snd_combine {A B} (l : list A) (k : list B) : List.length l = List.length k -> map snd (combine l k) = k.
Proof. revert k. induction l as [|a l IH]; intros [|b k] H; try discriminate; [reflexivity|]. cbn in *. f_equal. apply IH. congruence. Qed.
Lemma build_access ini names o : NoDup names -> ~ In "_parent" names -> build pfloat pint backend ini names new_multi [] = Ok o ->
  exists m heap, o = Multi m heap /\ m_names m = names /\
  (forall n, In n names -> config_of o n = fit_named ini n) /\
  (forall k n, nth_error names k = Some n -> config_nr o (Z.of_nat k) = fit_named ini n).
Proof.
  intros ND NP B. apply build_inv in B. destruct B as (V & fs & H & ->). cbn [List.length app]. set (l := combine names (seq 0 (List.length names))).
  assert (L1 : map fst l = names) by (apply map_fst_combine; now rewrite seq_length).
  assert (L2 : map snd l = seq 0 (List.length names)) by (apply map_snd_combine; now rewrite seq_length).
  assert (N : forall k n, nth_error names k = Some n -> nth_error l k = Some (n, k)).
  { intros k n E. subst l. clear - E. assert (G : forall s j, nth_error (combine names (seq s (List.length names))) k = Some (n, j) <-> j = (s + k)%nat).
    { revert k E. induction names as [|a r IH]; intros [|k] E s j; try discriminate; cbn in *.
      - injection E as ->. rewrite Nat.add_0_r. split; congruence.
      - rewrite (IH k E (S s) j). lia. }
    now apply G. }
  destruct (C62_distinct_names l) as (A1 & A2 & A3 & A4).
  - intros x I. apply V. rewrite <- L1. now apply in_map.
  - now rewrite L1.
  - now rewrite L1.
  - rewrite L2. apply seq_NoDup.
  - assert (HK : forall k n, nth_error names k = Some n -> exists f, nth_error fs k = Some f /\ fit_named ini n = Ok f).
    { clear - H. induction H as [|a f r fs P H IH]; intros [|k] n E; try discriminate; cbn in *; [injection E as <-; now exists f|now apply IH]. }
    exists (add_configs new_multi l), fs. split; [reflexivity|]. split; [now rewrite A1|]. split.
    + intros n I. apply In_nth_error in I. destruct I as [k E]. destruct (HK k n E) as (f & F & ->). unfold config_of.
      rewrite (A3 n k) by (apply (nth_error_In _ k); now apply N). cbn [bind]. now rewrite F.
    + intros k n E. destruct (HK k n E) as (f & F & ->). unfold config_nr. rewrite (A4 k n k) by now apply N. cbn [bind]. now rewrite F.
Qed.
End B.

(** A file without configurations gives a single fit of its model-definition. *)
Theorem C159_single : forall pfloat pint backend order ini, config_names ini = Ok [] ->
  get_fitobject pfloat pint backend order ini = (do cfg <- get_config pfloat pint ini None; do f <- make_fits backend cfg; Ok (Single f)) /\
  forall cfg f, get_config pfloat pint ini None = Ok cfg -> make_fits backend cfg = Ok f -> configured backend cfg f.
Proof. intros pfloat pint backend order ini E. split; [unfold get_fitobject; rewrite E; reflexivity|]. intros cfg f _ F. now apply made. Qed.
Print Assumptions C159_single.

(** A file with configurations gives a MultiFits object with exactly these configurations, each of which is the fit described
    by its own configuration; names are independent of the traversal of the set. *)
Theorem C159_multi : forall pfloat pint backend order ini names o, traversal order ->
  config_names ini = Ok names -> names <> [] -> ~ In "_parent" names -> get_fitobject pfloat pint backend order ini = Ok o ->
  exists m heap, o = Multi m heap /\ NoDup (m_names m) /\ (forall n, In n (m_names m) <-> In n names) /\
  forall n, In n names -> exists cfg f, get_config pfloat pint ini (Some n) = Ok cfg /\ config_of o n = Ok f /\ configured backend cfg f.
Proof.
  intros pfloat pint backend order ini names o T E NE NP. unfold get_fitobject. rewrite E. cbn [bind].
  assert (P : Permutation (order (nodup string_dec names)) (nodup string_dec names)) by (apply T, NoDup_nodup).
  destruct (nodup string_dec names) as [|a r] eqn:D.
  { exfalso. destruct names as [|x l]; [congruence|]. assert (I : In x (nodup string_dec (x :: l))) by (apply nodup_In; now left). rewrite D in I. destruct I. }
  intros B. pose proof (build_inv pfloat pint backend ini _ _ _ _ B) as (_ & fs & HF & _).
  assert (IN : forall n, In n (order (a :: r)) <-> In n names).
  { intros n. rewrite <- (nodup_In string_dec names), D. split; apply Permutation_in; [exact P|now symmetry]. }
  assert (NN : NoDup (order (a :: r))) by (apply (Permutation_NoDup (Permutation_sym P)); rewrite <- D; apply NoDup_nodup).
  apply build_access in B; [|exact NN|rewrite IN; exact NP]. destruct B as (m & heap & -> & M & G & _).
  exists m, heap. split; [reflexivity|]. rewrite M. split; [exact NN|]. split; [exact IN|]. intros n I. apply IN in I. rewrite (G n I).
  assert (exists f, fit_named pfloat pint backend ini n = Ok f) as [f F].
  { clear - HF I. induction HF as [|x f l fs Q HF IH]; [destruct I|]. destruct I as [->|I]; [now exists f|auto]. }
  rewrite F. unfold fit_named in F. destruct (get_config pfloat pint ini (Some n)) as [cfg|e]; [|discriminate]. cbn [bind] in F. exists cfg, f. split; [reflexivity|]. split; [reflexivity|]. now apply made.
Qed.
Print Assumptions C159_multi.

(** It is accepted exactly if every name is a valid name and every configuration can be read, has proper definitions of its
    variables, and does not set a parameter of Fits in the wrong section. *)
Theorem C159_accepted : forall pfloat pint backend order ini names, traversal order -> config_names ini = Ok names -> names <> [] ->
  ((exists o, get_fitobject pfloat pint backend order ini = Ok o) <->
   forall n, In n names -> valid_name n /\ exists cfg dd, get_config pfloat pint ini (Some n) = Ok cfg /\ from_dict (c_defdict cfg) = Ok dd /\
     forall k, In k passed -> ~ In k (keys (c_fits cfg))).
Proof.
  intros pfloat pint backend order ini names T E NE. unfold get_fitobject. rewrite E. cbn [bind].
  assert (P : Permutation (order (nodup string_dec names)) (nodup string_dec names)) by (apply T, NoDup_nodup).
  destruct (nodup string_dec names) as [|a r] eqn:D.
  { exfalso. destruct names as [|x l]; [congruence|]. assert (I : In x (nodup string_dec (x :: l))) by (apply nodup_In; now left). rewrite D in I. destruct I. }
  assert (IN : forall n, In n (order (a :: r)) <-> In n names).
  { intros n. rewrite <- (nodup_In string_dec names), D. split; apply Permutation_in; [exact P|now symmetry]. }
  assert (Q : forall n, (exists f, fit_named pfloat pint backend ini n = Ok f) <-> exists cfg dd, get_config pfloat pint ini (Some n) = Ok cfg /\ from_dict (c_defdict cfg) = Ok dd /\ forall k, In k passed -> ~ In k (keys (c_fits cfg))).
  { intros n. unfold fit_named. destruct (get_config pfloat pint ini (Some n)) as [cfg|e]; cbn [bind].
    - rewrite (made_iff backend cfg). split.
      + intros [[dd A] B]. exists cfg, dd. auto.
      + intros (c & dd & [= <-] & A & B). split; [now exists dd|exact B].
    - split; [intros [f F]; discriminate|intros (c & dd & F & _); discriminate]. }
  split.
  - intros [o B] n I. apply build_inv in B. destruct B as (V & fs & H & _). apply IN in I. split; [now apply V|]. apply Q.
    clear - H I. induction H as [|x f l fs P H IH]; [destruct I|]. destruct I as [->|I]; [now exists f|auto].
  - intros H. apply build_total. intros n I. apply IN in I. destruct (H n I) as [V X]. split; [exact V|]. now apply Q.
Qed.
Print Assumptions C159_accepted.

(** The order of the configurations is that of the traversal of a set: access by number, and everything taken from the first
    configuration, depends on it. *)
Definition eg_ini : inifile :=
  [("fits_kwargs", [("sig0", Some "True"); ("int_q", Some "False")]); ("least_squares_kwargs", []); ("defdict", []);
   ("RT1_V", [("V_name", Some "Rayleigh")]); ("RT1_SRF", []); ("#config a fits_kwargs", [("sig0", Some "False")]); ("#config b", [])].
Definition eg_float (s : string) : option Q := None.
Definition eg_int (s : string) : option Z := None.
Definition sig0_of (r : res fits) : res val := do f <- r; Ok (o_sig0 f).
Lemma id_trav : traversal (fun l => l). Proof. intros l _. apply Permutation_refl. Qed.
Lemma rev_trav : traversal (@rev string). Proof. intros l _. apply Permutation_sym, Permutation_rev. Qed.
Theorem C159_order_refuted : exists order order' o o', traversal order /\ traversal order' /\
  get_fitobject eg_float eg_int VNone order eg_ini = Ok o /\ get_fitobject eg_float eg_int VNone order' eg_ini = Ok o' /\
  sig0_of (config_nr o 0) = Ok (VBool false) /\ sig0_of (config_nr o' 0) = Ok (VBool true).
Proof.
  exists (fun l => l), (@rev string). do 2 eexists. split; [apply id_trav|]. split; [apply rev_trav|]. split; [reflexivity|]. split; [reflexivity|]. split; reflexivity.
Qed.
Print Assumptions C159_order_refuted.
Example C159_example : exists o, config_names eg_ini = Ok ["a"; "b"] /\ get_fitobject eg_float eg_int VNone (@rev string) eg_ini = Ok o /\
  sig0_of (config_of o "a") = Ok (VBool false) /\ sig0_of (config_of o "b") = Ok (VBool true).
Proof. eexists. split; [reflexivity|]. split; [reflexivity|]. split; reflexivity. Qed.

(** access by name does not depend on it *)
Theorem C159_by_name : forall pfloat pint backend order order' ini names o o', traversal order -> traversal order' ->
  config_names ini = Ok names -> ~ In "_parent" names ->
  get_fitobject pfloat pint backend order ini = Ok o -> get_fitobject pfloat pint backend order' ini = Ok o' ->
  forall n, In n names -> config_of o n = config_of o' n.
Proof.
  intros pfloat pint backend order order' ini names o o' T T' E NP B B' n I. unfold get_fitobject in *. rewrite E in *. cbn [bind] in *.
  pose proof (NoDup_nodup string_dec names) as ND. pose proof (T _ ND) as P. pose proof (T' _ ND) as P'.
  pose proof (fun n => nodup_In string_dec names n) as NI. destruct (nodup string_dec names) as [|a r] eqn:D; [exfalso; apply (NI n), I|].
  apply build_access in B; [|apply (Permutation_NoDup (Permutation_sym P)); exact ND|intros X; apply NP, NI; now apply (Permutation_in _ P)].
  apply build_access in B'; [|apply (Permutation_NoDup (Permutation_sym P')); exact ND|intros X; apply NP, NI; now apply (Permutation_in _ P')].
  destruct B as (m & h & _ & _ & G & _), B' as (m' & h' & _ & _ & G' & _). apply NI in I. rewrite G, G'; [reflexivity| |]; (eapply Permutation_in; [apply Permutation_sym; eassumption|exact I]).
Qed.
Print Assumptions C159_by_name.

(** An entry of fits_kwargs that is no parameter of Fits (e.g. misspelled) is accepted and has no effect. *)
Theorem C159_unknown_ignored_refuted : forall backend cfg k v, ~ In k known -> ~ In k passed ->
  make_fits backend (mkconfig (c_lsq cfg) (c_defdict cfg) (c_V cfg) (c_SRF cfg) (dset string_dec k v (c_fits cfg))) =
  make_fits backend cfg.
Proof.
  intros backend cfg k v K P. unfold make_fits. cbn [c_lsq c_defdict c_V c_SRF c_fits].
  assert (D : forall q, k <> q -> dget string_dec q (dset string_dec k v (c_fits cfg)) = dget string_dec q (c_fits cfg)) by (intros q N; apply dget_dset_other; congruence).
  assert (X : existsb (fun q => dmem string_dec q (dset string_dec k v (c_fits cfg))) passed = existsb (fun q => dmem string_dec q (c_fits cfg)) passed).
  { assert (G : forall l, ~ In k l -> existsb (fun q => dmem string_dec q (dset string_dec k v (c_fits cfg))) l = existsb (fun q => dmem string_dec q (c_fits cfg)) l).
    { intros l. induction l as [|q l IH]; intros N; [reflexivity|]. cbn in N |- *. rewrite IH by tauto. unfold dmem. rewrite D; [reflexivity|intros ->; tauto]. }
    now apply G. }
  rewrite X. clear X. destruct (existsb (fun q => dmem string_dec q (c_fits cfg)) passed); [reflexivity|]. destruct (from_dict (c_defdict cfg)); [|reflexivity]. cbn [bind]. unfold known in K. cbn [In] in K. unfold arg.
  rewrite !D by (intros ->; tauto). reflexivity.
Qed.
Print Assumptions C159_unknown_ignored_refuted.
Example C159_example_unknown : ~ In "int_q" known /\ ~ In "int_q" passed /\
  exists o f, get_fitobject eg_float eg_int VNone (fun l => l) eg_ini = Ok o /\ config_of o "a" = Ok f /\ o_int_Q f = VBool true.
Proof. split; [cbn; intuition discriminate|]. split; [cbn; intuition discriminate|]. do 2 eexists. split; [reflexivity|]. split; reflexivity. Qed.

(** settings of the file that are passed by get_fitobject itself cannot be given a second time *)
Theorem C159_conflict : forall backend cfg k, In k ["self"; "dataset"; "defdict"; "set_V_SRF"; "lsq_kwargs"] -> In k (keys (c_fits cfg)) -> make_fits backend cfg = Err TypeError.
Proof.
  intros backend cfg k I K. unfold make_fits. assert (E : existsb (fun k => dmem string_dec k (c_fits cfg)) passed = true); [|now rewrite E].
  apply existsb_exists. exists k. split; [exact I|]. apply (dget_in_keys string_dec) in K. unfold dmem. destruct (dget string_dec k (c_fits cfg)); congruence.
Qed.
Print Assumptions C159_conflict.
