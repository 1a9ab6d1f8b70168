(** C53, C54, C91-C93: ID bookkeeping and exception policy. *)
From Coq Require Import List Arith ZArith Bool String Ascii Lia Permutation.
From Verif Require Import Base Base_Proofs Str_Model GF_Model GF_Proofs Pip_Model Pip_Spec Pip_Props Ids_Model Ids_Spec.
Import ListNotations.
Open Scope string_scope.

Lemma number_fst {Arg} cnt (mask : Arg -> bool) args : forall i, map fst (number cnt mask i args) = filter (fun a => negb (mask a)) args.
Proof. induction args as [|a r IH]; intros i; cbn; [reflexivity|]. destruct (mask a); cbn; rewrite IH; reflexivity. Qed.
Lemma number_snd {Arg} cnt (mask : Arg -> bool) args : forall i, exists k, map snd (number cnt mask i args) = map cnt (seq i k).
Proof.
  induction args as [|a r IH]; intros i; cbn; [exists 0; reflexivity|]. destruct (mask a); [apply IH|].
  destruct (IH (S i)) as [k E]. exists (S k). cbn. rewrite E. reflexivity.
Qed.
Lemma NoDup_map_inj {A B} (f : A -> B) l : (forall x y, f x = f y -> x = y) -> NoDup l -> NoDup (map f l).
Proof.
  intros I N. induction N as [|x l Hx N IH]; cbn; constructor; [|exact IH]. rewrite in_map_iff. intros (y & E & Hy). apply I in E. congruence.
Qed.
Lemma find_missing_inj l : forall i j, find_missing l i = find_missing l j -> i = j.
Proof.
  intros i j E. destruct (Nat.lt_trichotomy i j) as [H|[H|H]]; [|exact H|]; apply (find_missing_increasing l) in H; lia.
Qed.
Lemma append_rows_rows f rows : rows_of (append_rows f rows) = (rows_of f ++ rows)%list.
Proof. destruct rows, f; cbn; rewrite ?app_nil_r; reflexivity. Qed.
Lemma check_fresh {Arg} (feat : Arg -> string) f args todo : check_IDs feat f args = Ok todo ->
  NoDup (map snd todo) /\ forall z, In z (map snd todo) -> ~ In z (stored_nums f).
Proof.
  intros H. destruct f as [| |rows]; cbn in H; inversion H; subst; clear H.
  - destruct (number_snd Z.of_nat (fun _ : Arg => false) args 0) as [k E]. rewrite E. split; [|intros z _ []].
    apply NoDup_map_inj; [intros; lia|apply seq_NoDup].
  - match goal with |- context [number ?c ?m 0 args] => destruct (number_snd c m args 0) as [k E] end. rewrite E. split.
    + apply NoDup_map_inj; [apply find_missing_inj|apply seq_NoDup].
    + intros z Hz. apply in_map_iff in Hz. destruct Hz as (i & <- & _). apply find_missing_fresh.
Qed.
Lemma NoDup_app_disj {A} (l m : list A) : NoDup l -> NoDup m -> (forall x, In x m -> ~ In x l) -> NoDup (l ++ m).
Proof.
  intros Hl Hm D. induction Hl as [|x l Hx Hl IH]; [exact Hm|]. cbn. constructor.
  - rewrite in_app_iff. intros [H|H]; [contradiction|]. apply (D x H). left; reflexivity.
  - apply IH. intros y Hy Hy'. apply (D y Hy). right; exact Hy'.
Qed.
Lemma done_sub {A B} (f : A -> B) done lost todo : Permutation (done ++ lost)%list todo -> NoDup (map f todo) ->
  NoDup (map f done) /\ forall z, In z (map f done) -> In z (map f todo).
Proof.
  intros P N. apply (Permutation_map f) in P. rewrite map_app in P. split.
  - apply Permutation_sym in P. apply (Permutation_NoDup P) in N. clear - N. induction (map f done) as [|x l IH]; [constructor|].
    cbn in N. inversion N; subst. constructor; [|apply IH; assumption]. intros H. apply H1. apply in_or_app. left; exact H.
  - intros z Hz. eapply Permutation_in; [exact P|]. apply in_or_app. left; exact Hz.
Qed.

(** ** C53 *)
Theorem C53_unique_numbers (Arg : Type) (raw_id feature_id : Arg -> string) (ok : list Arg -> Prop) (f : file) :
  history raw_id feature_id ok f -> NoDup (stored_nums f).
Proof.
  intros H. induction H as [|f args todo done lost H IH O C P|]; try constructor.
  destruct (check_fresh feature_id f args todo C) as [N F]. destruct (done_sub snd done lost todo P N) as [Nd Sd].
  unfold stored_nums in *. rewrite append_rows_rows, map_app. rewrite map_map. cbn [stored_row snd].
  apply NoDup_app_disj; [exact IH|exact Nd|]. intros z Hz. apply F, Sd, Hz.
Qed.
Print Assumptions C53_unique_numbers.

(** which of the requested arguments are processed *)
Theorem C53_processed (Arg : Type) (feature_id : Arg -> string) (f : file) (args : list Arg) (todo : list (Arg * Z)) :
  check_IDs feature_id f args = Ok todo ->
  forall a, In a (map fst todo) <-> In a args /\ ~ In (get_ID (feature_id a)) (map get_ID (stored_ids f)).
Proof.
  intros H a. destruct f as [| |rows]; cbn in H; inversion H; subst; clear H; rewrite number_fst, filter_In.
  - split; [intros [X _]; split; [exact X|intros []]|intros [X _]; split; [exact X|reflexivity]].
  - unfold stored_ids. cbn [rows_of]. rewrite map_map. unfold extract_ID, inb.
    destruct (in_dec string_dec (get_ID (feature_id a)) (map (fun x => get_ID (fst x)) rows)) as [I|I]; split.
    + intros [_ X]. discriminate.
    + intros [_ X]. contradiction.
    + intros [X _]. split; [exact X|exact I].
    + intros [X _]. split; [exact X|reflexivity].
Qed.
Print Assumptions C53_processed.
(** with the default [get_names_ids] and IDs that do not collide: exactly the
    requested IDs that are not yet stored *)
Theorem C53_default_processed (Arg : Type) (raw_id : Arg -> string) (f : file) (args : list Arg) (todo : list (Arg * Z)) :
  check_IDs (default_feature raw_id) f args = Ok todo -> collision_free (map raw_id args ++ stored_ids f) ->
  forall a, In a (map fst todo) <-> In a args /\ ~ In (raw_id a) (stored_ids f).
Proof.
  intros H CF a. rewrite (C53_processed Arg _ f args todo H a). unfold default_feature. split; intros [X Y]; (split; [exact X|]); intros Z; apply Y.
  - apply in_map, Z.
  - apply in_map_iff in Z. destruct Z as (s & E & Hs). rewrite <- (CF s (raw_id a)); [exact Hs|apply in_or_app; right; exact Hs| |exact E].
    apply in_or_app. left. apply in_map, X.
Qed.
Print Assumptions C53_default_processed.
Lemma hrun {Arg} (raw feat : Arg -> string) ok f args todo done lost f' :
  append_rows f (map (stored_row raw) done) = f' ->
  history raw feat ok f -> ok args -> check_IDs feat f args = Ok todo -> Permutation (done ++ lost)%list todo -> history raw feat ok f'.
Proof. intros <-. apply h_run. Qed.
Lemma ex_history1 : history (fun s : string => s) (fun s => s) (fun _ => True) (Table [("site_a", 0%Z); ("1", 1%Z)]).
Proof.
  apply (hrun _ _ _ NoFile ["site_a"; "1"; "b"] [("site_a", 0%Z); ("1", 1%Z); ("b", 2%Z)] [("site_a", 0%Z); ("1", 1%Z)] [("b", 2%Z)] _); [reflexivity|apply h_new|exact I|reflexivity|reflexivity].
Qed.
Example C53_example :
  history (fun s : string => s) (fun s => s) (fun _ => True) (Table [("site_a", 0%Z); ("1", 1%Z); ("b", 2%Z)]) /\
  check_IDs (default_feature (fun s : string => s)) (Table [("site_a", 0%Z); ("1", 1%Z)]) ["b"; "1"] = Ok [("b", 2%Z)] /\
  collision_free (map (fun s : string => s) ["b"; "1"] ++ stored_ids (Table [("site_a", 0%Z); ("1", 1%Z)])).
Proof.
  split; [|split; [reflexivity|]].
  - apply (hrun _ _ _ (Table [("site_a", 0%Z); ("1", 1%Z)]) ["b"; "1"] [("b", 2%Z)] [("b", 2%Z)] [] _); [reflexivity|apply ex_history1|exact I|reflexivity|reflexivity].
  - intros a b Ha Hb. cbn in Ha, Hb. intuition subst; try reflexivity; exfalso; vm_compute in H; discriminate.
Qed.

(** the IDs "1" and "RT1_1" are taken for the same: the second is never processed *)
Theorem C53_refuted : exists (f : file) (args : list string) (todo : list (string * Z)) (a : string),
  history (fun s => s) (default_feature (fun s => s)) (fun _ => True) f /\
  check_IDs (default_feature (fun s => s)) f args = Ok todo /\
  In a args /\ ~ In a (stored_ids f) /\ ~ In a (map fst todo).
Proof.
  exists (Table [("site_a", 0%Z); ("1", 1%Z)]), ["RT1_1"], [], "RT1_1". split; [exact ex_history1|]. split; [reflexivity|].
  split; [left; reflexivity|]. split; [|intros []]. cbn. intros H. destruct H as [H|[H|[]]]; discriminate.
Qed.
Print Assumptions C53_refuted.
(** a first run that fails before the table "reader_arg" is written makes
    every later run fail *)
Theorem C53_no_table_refuted :
  history (fun s : string => s) (fun s => s) (fun _ => True) NoTable /\
  forall args : list string, check_IDs (fun s => s) NoTable args = Err AttributeError.
Proof. split; [apply h_fail, h_new|reflexivity]. Qed.
Print Assumptions C53_no_table_refuted.

(** ** C91 *)
(** with the default [get_names_ids] no ID is ever stored twice if no list of
    arguments contains an ID twice *)
Theorem C91_stored_once (Arg : Type) (raw_id : Arg -> string) (f : file) :
  history raw_id (default_feature raw_id) (fun args => NoDup (map (fun a => get_ID (raw_id a)) args)) f ->
  NoDup (map get_ID (stored_ids f)).
Proof.
  intros H. induction H as [|f args todo done lost H IH O C P|]; try constructor.
  unfold stored_ids in *. rewrite append_rows_rows, !map_app. rewrite !map_map. cbn [stored_row fst].
  assert (T : map fst todo = filter (fun a => negb (inb string_dec (get_ID (raw_id a)) (map get_ID (stored_ids f)))) args).
  { clear - C. destruct f as [| |rows]; cbn in C; inversion C; subst; clear C; rewrite number_fst.
    - induction args as [|a r E]; [reflexivity|]. cbn. rewrite E at 1. reflexivity.
    - unfold stored_ids. cbn [rows_of]. rewrite map_map. reflexivity. }
  assert (N : NoDup (map (fun d => get_ID (raw_id (fst d))) todo)).
  { rewrite <- (map_map fst (fun a => get_ID (raw_id a))), T. clear - O. induction args as [|a r E]; [constructor|]. cbn in O. inversion O; subst.
    cbn [filter]. destruct (negb _); [|apply E; assumption]. cbn [map]. constructor; [|apply E; assumption].
    intros X. apply in_map_iff in X. destruct X as (b & Eb & Hb). apply filter_In in Hb. apply H1. rewrite <- Eb. apply (in_map (fun a => get_ID (raw_id a))). apply Hb. }
  destruct (done_sub (fun d => get_ID (raw_id (fst d))) done lost todo P N) as [Nd Sd].
  apply NoDup_app_disj; [rewrite map_map in IH; exact IH|exact Nd|].
  intros z Hz Hz'. apply Sd in Hz. apply in_map_iff in Hz. destruct Hz as (d & Ed & Hd).
  assert (X : In (fst d) (map fst todo)) by (apply in_map, Hd). rewrite T in X. apply filter_In in X. destruct X as [_ X].
  unfold inb in X. destruct (in_dec string_dec (get_ID (raw_id (fst d))) (map get_ID (stored_ids f))) as [I|I]; [discriminate|].
  apply I. rewrite Ed. unfold stored_ids. rewrite map_map. exact Hz'.
Qed.
Print Assumptions C91_stored_once.
Example C91_example : history (fun s : string => s) (default_feature (fun s => s)) (fun args => NoDup (map get_ID args)) (Table [("a", 0%Z); ("b", 1%Z)]) /\
  NoDup (map get_ID ["b"; "a"]).
Proof.
  assert (N : NoDup (map get_ID ["b"; "a"])) by (constructor; [intros [H|[]]; discriminate|constructor; [intros []|constructor]]).
  split; [|exact N].
  apply (hrun _ _ _ (Table [("a", 0%Z)]) ["b"; "a"] [("b", 1%Z)] [("b", 1%Z)] [] _); [reflexivity| |exact N|reflexivity|reflexivity].
  apply (hrun _ _ _ NoFile ["a"] [("a", 0%Z)] [("a", 0%Z)] [] _); [reflexivity|apply h_new| |reflexivity|reflexivity].
  constructor; [intros []|constructor].
Qed.
(** with a custom [feature_id] every run processes and stores every ID again *)
Theorem C91_custom_names_refuted : exists (feature_id : string -> string) (f : file),
  (forall a b, feature_id a = feature_id b -> a = b) /\
  history (fun s => s) feature_id (fun args => NoDup args) f /\ ~ NoDup (stored_ids f).
Proof.
  exists (fun s => "site_" ++ s), (Table [("a", 0%Z); ("a", 1%Z)]). split; [|split].
  - intros a b H. inversion H. reflexivity.
  - assert (N : NoDup ["a"]) by (constructor; [intros []|constructor]).
    apply (hrun _ _ _ (Table [("a", 0%Z)]) ["a"] [("a", 1%Z)] [("a", 1%Z)] [] _); [reflexivity| |exact N|reflexivity|reflexivity].
    apply (hrun _ _ _ NoFile ["a"] [("a", 0%Z)] [("a", 0%Z)] [] _); [reflexivity|apply h_new|exact N|reflexivity|reflexivity].
  - cbn. intros N. inversion N; subst. apply H1. left; reflexivity.
Qed.
Print Assumptions C91_custom_names_refuted.
(** an ID that occurs twice in one list of arguments is processed and stored twice *)
Theorem C91_repeated_argument_refuted : exists (f : file),
  history (fun s : string => s) (default_feature (fun s => s)) (fun _ => True) f /\ ~ NoDup (stored_ids f).
Proof.
  exists (Table [("a", 0%Z); ("a", 1%Z)]). split.
  - apply (hrun _ _ _ NoFile ["a"; "a"] [("a", 0%Z); ("a", 1%Z)] [("a", 0%Z); ("a", 1%Z)] [] _); [reflexivity|apply h_new|exact I|reflexivity|reflexivity].
  - cbn. intros N. inversion N; subst. apply H1. left; reflexivity.
Qed.
Print Assumptions C91_repeated_argument_refuted.

(** ** C54 *)
Lemma tagged_in t ex : tagged t ex = true <-> In (XStr t) ex.
Proof.
  unfold tagged. rewrite existsb_exists. split.
  - intros ([s|] & Hs & E); [|discriminate]. apply String.eqb_eq in E. subst. exact Hs.
  - intros H. exists (XStr t). split; [exact H|apply String.eqb_refl].
Qed.
Lemma tagged_not t ex : tagged t ex = false <-> ~ In (XStr t) ex.
Proof. rewrite <- tagged_in. destruct (tagged t ex); split; congruence. Qed.

Theorem C54_raises (H : Type) (dumppath : bool) (load : option H) (ex : list exarg) :
  exceptfunc None dumppath load ex = Reraised <-> dumppath = false /\ forall t, In t tags -> ~ In (XStr t) ex.
Proof.
  unfold exceptfunc. split.
  - intros E. destruct (tagged "rt1_skip" ex) eqn:A; [discriminate|]. destruct (tagged "rt1_file_already_exists" ex) eqn:B.
    + destruct dumppath; [destruct load|]; discriminate.
    + destruct (tagged "rt1_data_error" ex) eqn:D; [discriminate|]. destruct dumppath; [discriminate|]. split; [reflexivity|].
      apply tagged_not in A, B, D. intros t [<-|[<-|[<-|[]]]]; assumption.
  - intros [-> N]. assert (A := N _ (or_introl eq_refl)). assert (B := N _ (or_intror (or_introl eq_refl))).
    assert (D := N _ (or_intror (or_intror (or_introl eq_refl)))). apply tagged_not in A, B, D. rewrite A, B, D. reflexivity.
Qed.
Print Assumptions C54_raises.
Theorem C54_reloads (H : Type) (dumppath : bool) (load : option H) (ex : list exarg) (h : H) :
  exceptfunc None dumppath load ex = RetFit h <->
  In (XStr "rt1_file_already_exists") ex /\ ~ In (XStr "rt1_skip") ex /\ dumppath = true /\ load = Some h.
Proof.
  unfold exceptfunc. rewrite <- tagged_in, <- tagged_not. split.
  - intros E. destruct (tagged "rt1_skip" ex); [discriminate|]. destruct (tagged "rt1_file_already_exists" ex).
    + destruct dumppath; [|discriminate]. destruct load; [|discriminate]. inversion E. auto.
    + destruct (tagged "rt1_data_error" ex); [discriminate|]. destruct dumppath; discriminate.
  - intros (A & B & -> & ->). rewrite A, B. reflexivity.
Qed.
Print Assumptions C54_reloads.
(** otherwise the exception is swallowed; nothing else can happen *)
Theorem C54_otherwise (H : Type) (dumppath : bool) (load : option H) (ex : list exarg) :
  exceptfunc None dumppath load ex = RetNone <->
  (exists t, In t tags /\ In (XStr t) ex \/ dumppath = true) /\
  (In (XStr "rt1_file_already_exists") ex -> In (XStr "rt1_skip") ex \/ dumppath = false \/ load = None).
Proof.
  unfold exceptfunc. rewrite <- !tagged_in. split.
  - intros E. destruct (tagged "rt1_skip" ex) eqn:A.
    + split; [exists "rt1_skip"; left; split; [left; reflexivity|apply tagged_in; exact A]|auto].
    + destruct (tagged "rt1_file_already_exists" ex) eqn:B.
      * split; [exists "rt1_file_already_exists"; left; split; [right; left; reflexivity|apply tagged_in; exact B]|].
        intros _. destruct dumppath; [|auto]. destruct load; [discriminate|auto].
      * split; [|discriminate]. destruct (tagged "rt1_data_error" ex) eqn:D.
        -- exists "rt1_data_error". left. split; [right; right; left; reflexivity|apply tagged_in; exact D].
        -- exists "". right. destruct dumppath; [reflexivity|discriminate].
  - intros [(t & T) F]. destruct (tagged "rt1_skip" ex) eqn:A; [reflexivity|]. destruct (tagged "rt1_file_already_exists" ex) eqn:B.
    + destruct (F eq_refl) as [X|[ -> | -> ]]; [discriminate|reflexivity|destruct dumppath; reflexivity].
    + destruct (tagged "rt1_data_error" ex) eqn:D; [reflexivity|]. destruct T as [[[<-|[<-|[<-|[]]]] X]| -> ]; [| | |reflexivity];
        apply tagged_in in X; congruence.
Qed.
Print Assumptions C54_otherwise.
Example C54_example : exceptfunc (H:=nat) None false None [XStr "boom"; XOther] = Reraised /\
  exceptfunc None true (Some 7) [XOther; XStr "rt1_file_already_exists"] = RetFit 7 /\
  exceptfunc (H:=nat) None false None [XStr "rt1_data_error"] = RetNone.
Proof. repeat split. Qed.

(** ** C92 *)
(** with a dump path no exception leaves [_evalfunc]; an empty dataset is
    skipped in any case *)
Theorem C92_contained (H : Type) (load : option H) (reader : call reader_value) (fit : nat * aux -> call H) :
  evalfunc None true load reader fit <> Reraised /\ (forall e, evalfunc None true load reader fit <> Failed e).
Proof.
  unfold evalfunc. destruct (evalbody reader fit) as [h|e]; [split; [|intros e]; discriminate|].
  unfold exceptfunc. destruct (tagged "rt1_skip" e); [split; [|intros e']; discriminate|].
  destruct (tagged "rt1_file_already_exists" e); [destruct load; split; [|intros e'| |intros e']; discriminate|].
  destruct (tagged "rt1_data_error" e); split; [|intros e'| |intros e']; discriminate.
Qed.
Print Assumptions C92_contained.
(** without a dump path: the result if there is one; an exception leaves [_evalfunc] exactly if it carries none of the
    three tags, otherwise the feature has no result; a name that cannot be made fails with its own exception *)
Theorem C92_outcomes (H : Type) (load : option H) (reader : call reader_value) (fit : nat * aux -> call H) :
  (forall h d p, evalbody reader fit = Value h -> evalfunc d p load reader fit = RetFit h) /\
  (forall e, evalbody reader fit = Raise e ->
     (evalfunc None false load reader fit = Reraised <->
        ~ (exists t, In t ["rt1_skip"; "rt1_file_already_exists"; "rt1_data_error"]%string /\ In (XStr t) e)) /\
     (evalfunc None false load reader fit <> Reraised -> evalfunc None false load reader fit = RetNone) /\
     (forall x p, evalfunc (Some x) p load reader fit = Failed x)).
Proof.
  split; [intros h d p E; unfold evalfunc; now rewrite E|]. intros e E. unfold evalfunc. rewrite E. split; [|split; [|reflexivity]].
  - unfold exceptfunc.
    assert (T : forall t, tagged t e = true <-> In (XStr t) e) by (intros t; apply tagged_in).
    destruct (tagged "rt1_skip" e) eqn:A; [split; [discriminate|]; intros N; exfalso; apply N; exists "rt1_skip"%string; split; [left; reflexivity|now apply T]|].
    destruct (tagged "rt1_file_already_exists" e) eqn:B; [split; [discriminate|]; intros N; exfalso; apply N; exists "rt1_file_already_exists"%string; split; [right; left; reflexivity|now apply T]|].
    destruct (tagged "rt1_data_error" e) eqn:C; [split; [discriminate|]; intros N; exfalso; apply N; exists "rt1_data_error"%string; split; [right; right; left; reflexivity|now apply T]|].
    split; [|reflexivity]. intros _ [t [[<-|[<-|[<-|[]]]] Ht]]; apply T in Ht; congruence.
  - unfold exceptfunc. destruct (tagged "rt1_skip" e); [reflexivity|]. destruct (tagged "rt1_file_already_exists" e); [reflexivity|].
    destruct (tagged "rt1_data_error" e); [reflexivity|]. congruence.
Qed.
Print Assumptions C92_outcomes.
Theorem C92_empty_dataset (H : Type) (dumppath : bool) (load : option H) (fit : nat * aux -> call H) (r : reader_value) :
  r = RFrame 0 \/ (exists more, r = RSeq (Some 0) (S more)) ->
  evalfunc None dumppath load (Value r) fit = RetNone.
Proof. intros [->|[[|more] ->]]; reflexivity. Qed.
Print Assumptions C92_empty_dataset.
(** every argument is counted: the total count after an undisturbed run is the
    number of arguments, the mean count the number of arguments with a result *)
Theorem C92_every_argument_counted (Job Row H : Type) (p : @params Job Row) (jobs : list Job) (kind : string -> bool)
    (to : H -> result) (res : Job -> handled H) (es : list event) (s : state) :
  1 <= n_combiner p -> (forall j, what p j = worker_sees to (res j)) ->
  (forall j h, In j jobs -> res j = RetFit h -> names_ok (to h) /\ uniform kind (to h)) ->
  undisturbed es -> executes p jobs es s -> main s = PEnd ->
  totcnt s = List.length jobs /\ meancnt s = total (fun j => match res j with RetFit _ => 1 | _ => 0 end) jobs.
Proof.
  intros Nc W G U X M. destruct (C49_counters_final Job Row p jobs kind es s Nc) as [A B]; try assumption.
  - intros j Hj. rewrite W. assert (Gj := G j). destruct (res j) as [| |h|e]; try exact I. apply (Gj h Hj eq_refl).
  - rewrite A, B. clear - W. split.
    + induction jobs as [|j l IH]; [reflexivity|]. change (total (queued p) (j :: l)) with (queued p j + total (queued p) l). rewrite IH.
      unfold queued. rewrite W. destruct (res j); reflexivity.
    + induction jobs as [|j l IH]; [reflexivity|]. change (total (dicts p) (j :: l)) with (dicts p j + total (dicts p) l). rewrite IH.
      unfold total. cbn [fold_right]. unfold dicts. rewrite W. destruct (res j); reflexivity.
Qed.
Print Assumptions C92_every_argument_counted.
Example C92_example : evalfunc (H:=nat) None false None (Raise [XStr "boom"]) (fun _ => Value 1) = Reraised /\
  evalfunc None true None (Value (RFrame 5)) (fun d => Value (fst d)) = RetFit 5 /\
  (forall j, what ex_params j = worker_sees (fun _ : unit => ex_result) (match j with 0 => RetFit tt | _ => Reraised end)).
Proof. repeat split. intros [|j]; reflexivity. Qed.

(** ** C93 *)
(** the documented return values of a reader: a table, or a table followed by
    any number of further values which become the aux_data *)
Theorem C93_reader_values (H : Type) (dumppath : bool) (load : option H) (fit : nat * aux -> call H) (n : nat) : n <> 0 ->
  (forall h, fit (n, ANone) = Value h -> evalfunc None dumppath load (Value (RFrame n)) fit = RetFit h) /\
  (forall h, fit (n, ASecond) = Value h -> evalfunc None dumppath load (Value (RSeq (Some n) 1)) fit = RetFit h) /\
  (forall h k, fit (n, ARest) = Value h -> evalfunc None dumppath load (Value (RSeq (Some n) (S (S k)))) fit = RetFit h).
Proof.
  intros N. destruct n as [|n]; [congruence|]. unfold evalfunc, evalbody, split_read. cbn [Nat.eqb].
  repeat split; intros h; [|intros|intros k]; intros; repeat match goal with E : fit _ = _ |- _ => rewrite E; clear E end; reflexivity.
Qed.
Print Assumptions C93_reader_values.
Example C93_example : evalfunc None false None (Value (RSeq (Some 4) 3)) (fun d => Value (fst d)) = RetFit 4.
Proof. reflexivity. Qed.
(** a list or tuple that holds only the table is never fitted *)
Theorem C93_singleton_refuted : forall (H : Type) (load : option H) (fit : nat * aux -> call H) (n : nat),
  evalfunc None false load (Value (RSeq (Some n) 0)) fit = Reraised /\
  evalfunc None true load (Value (RSeq (Some n) 0)) fit = RetNone.
Proof. intros. split; reflexivity. Qed.
Print Assumptions C93_singleton_refuted.
