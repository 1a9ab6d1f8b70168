(** C219: attributes of all configurations with MultiFits.accessor. *)
From Coq Require Import Arith Bool String List Lia.
From Verif Require Import Base Base_Proofs Acs_Model.
Import ListNotations.
Local Open Scope string_scope.
Local Open Scope list_scope.

Section P.
Variable cls : dict string kind.
Hypothesis cls_nodup : NoDup (map fst cls).

(** the properties of the class are those of the fits, or none at all *)
Lemma class_run (es : list event) k :
  In k (p_class (run cls es)) <-> (exists e, In e es /\ match e with New | Unpickle true _ => True | _ => False end) /\ In k (properties cls ++ attributes cls).
Proof.
  unfold run.
  assert (H : forall es p, In k (p_class (fold_left (step cls) es p)) <->
    In k (p_class p) \/ (exists e, In e es /\ match e with New | Unpickle true _ => True | _ => False end) /\ In k (properties cls ++ attributes cls)).
  { clear es. induction es as [|e es IH]; intros p; cbn [fold_left].
    - split; [now left|]. intros [H|[[e [[] _]] _]]. exact H.
    - rewrite IH. destruct e as [|[] fs]; cbn [step p_class]; try rewrite in_app_iff.
      + split; [intros [[H|H]|[[e [He Hx]] H]]|intros [H|[[e [[He|He] Hx]] H]]].
        * now left.
        * right. split; [exists New; split; [now left|exact I]|exact H].
        * right. split; [exists e; split; [now right|exact Hx]|exact H].
        * left. now left.
        * left. now right.
        * right. split; [exists e; now split|exact H].
      + split; [intros [[H|H]|[[e [He Hx]] H]]|intros [H|[[e [[He|He] Hx]] H]]].
        * now left.
        * right. split; [exists (Unpickle true fs); split; [now left|exact I]|exact H].
        * right. split; [exists e; split; [now right|exact Hx]|exact H].
        * left. now left.
        * left. now right.
        * right. split; [exists e; now split|exact H].
      + split; [intros [H|[[e [He Hx]] H]]|intros [H|[[e [[He|He] Hx]] H]]].
        * now left.
        * right. split; [exists e; split; [now right|exact Hx]|exact H].
        * now left.
        * subst e. contradiction.
        * right. split; [exists e; now split|exact H]. }
  rewrite H. cbn. tauto.
Qed.

Lemma acc_run (es : list event) a : In a (p_acc (run cls es)) ->
  (a = functions cls /\ In New es) \/ exists old, In (Unpickle old a) es.
Proof.
  unfold run.
  assert (H : forall es p, In a (p_acc (fold_left (step cls) es p)) -> In a (p_acc p) \/ (a = functions cls /\ In New es) \/ exists old, In (Unpickle old a) es).
  { clear es. induction es as [|e es IH]; intros p; cbn [fold_left]; [now left|]. intros H. apply IH in H. destruct H as [H|[[H1 H2]|[old H]]].
    - destruct e as [|[] fs]; cbn [step p_acc] in H; apply in_app_or in H; destruct H as [H|[H|[]]]; subst; try now left.
      + right. left. split; [reflexivity|now left].
      + right. right. exists true. now left.
      + right. right. exists false. now left.
    - right. left. split; [exact H1|now right].
    - right. right. exists old. now right. }
  intros Ha. apply H in Ha. destruct Ha as [[]|Ha]. exact Ha.
Qed.

Lemma in_functions k : In k (functions cls) <-> In (k, Function) cls.
Proof.
  unfold functions. rewrite in_map_iff. split.
  - intros [[a b] [E H]]. cbn in E. subst. apply filter_In in H. destruct H as [H E]. cbn in E. destruct b; try discriminate. exact H.
  - intros H. exists (k, Function). split; [reflexivity|]. apply filter_In. now split.
Qed.
Lemma in_shared k : In k (properties cls ++ attributes cls) <->
  In (k, Property) cls \/ (In k init_attrs /\ ~ In k (map fst cls) /\ ~ In k ignore_keys).
Proof.
  rewrite in_app_iff.
  unfold properties, attributes. rewrite in_map_iff, filter_In, andb_true_iff, !negb_true_iff, !inb_false.
  assert (E : (exists x : string * kind, fst x = k /\ In x (filter (fun p => match snd p with Property => true | _ => false end) cls)) <-> In (k, Property) cls).
  { split.
    - intros [[a b] [E H]]. cbn in E. subst. apply filter_In in H. destruct H as [H E]. cbn in E. destruct b; try discriminate. exact H.
    - intros H. exists (k, Property). split; [reflexivity|]. apply filter_In. now split. }
  rewrite E. tauto.
Qed.
Lemma one_kind k a b : In (k, a) cls -> In (k, b) cls -> a = b.
Proof.
  intros Ha Hb. pose proof (dget_in_nodup string_dec k a cls cls_nodup Ha). pose proof (dget_in_nodup string_dec k b cls cls_nodup Hb). congruence.
Qed.
Lemma not_shared k : In (k, Function) cls -> ~ In k (properties cls ++ attributes cls).
Proof.
  intros H X. apply in_shared in X. destruct X as [X|[_ [X _]]].
  - pose proof (one_kind _ _ _ H X). discriminate.
  - apply X. apply in_map_iff. now exists (k, Function).
Qed.

Variable V : Type.
Variable attr : nat -> string -> res V.
Variable fits : dict string nat.

(** In a process in which a MultiFits object has been created, every accessor (of created and of loaded objects) gives
    the values of each property of Fits and of each attribute that a new Fits object has, for all configurations; the
    functions of Fits give callbacks. *)
Theorem C219_attributes : forall (es : list event) (acc : list string) (k : string), In New es -> In acc (p_acc (run cls es)) ->
  In (k, Property) cls \/ (In k init_attrs /\ ~ In k (map fst cls) /\ k <> "plot") ->
  read attr (run cls es) acc fits k
    = bind (mapM (fun c => bind (attr (snd c) k) (fun v => Ok (fst c, v))) fits) (fun l => Ok (Values l)).
Proof.
  intros es acc k Hn Ha Hk. unfold read. replace (inb string_dec k (p_class (run cls es))) with true; [reflexivity|].
  symmetry. apply inb_iff. apply class_run. split; [exists New; now split|]. apply in_shared. destruct Hk as [H|[H1 [H2 H3]]]; [now left|]. right.
  split; [exact H1|]. split; [exact H2|]. intros [X|[X|[X|[]]]]; subst k; cbn in H1; intuition discriminate.
Qed.
Theorem C219_functions : forall (es : list event) (acc : list string) (k : string), In acc (p_acc (run cls es)) ->
  (forall old fs, In (Unpickle old fs) es -> incl (functions cls) fs) -> In (k, Function) cls ->
  read attr (run cls es) acc fits k = Ok (Callbacks k).
Proof.
  intros es acc k Ha Hf Hk. unfold read. replace (inb string_dec k (p_class (run cls es))) with false.
  - replace (inb string_dec k acc) with true; [reflexivity|]. symmetry. apply inb_iff. apply acc_run in Ha. destruct Ha as [[-> _]|[old Ha]].
    + now apply in_functions.
    + apply (Hf old acc Ha). now apply in_functions.
  - symmetry. apply inb_false. intros X. apply class_run in X. now apply (not_shared k Hk).
Qed.

(** In a process that has only loaded objects (dumps of the current version), no property and no attribute can be read. *)
Theorem C219_loaded_refuted : forall (es : list event) (acc : list string) (k : string),
  (forall e, In e es -> exists fs, e = Unpickle false fs) -> In acc (p_acc (run cls es)) -> ~ In k acc ->
  read attr (run cls es) acc fits k = Err AttributeError.
Proof.
  intros es acc k He Ha Hk. unfold read. replace (inb string_dec k (p_class (run cls es))) with false.
  - replace (inb string_dec k acc) with false; [reflexivity|]. symmetry. now apply inb_false.
  - symmetry. apply inb_false. intros X. apply class_run in X. destruct X as [[e [H X]] _]. destruct (He e H) as [fs ->]. exact X.
Qed.

(** The results of the fits (res_dict, fit_output), the auxiliary data, the plot-functions and the reader-args are never
    available, even if all configurations have them: a new Fits object does not have them (or they are ignored). *)
Theorem C219_results_refuted : forall (es : list event) (acc : list string) (k : string), In acc (p_acc (run cls es)) ->
  In k ["res_dict"; "fit_output"; "aux_data"; "plot"; "reader_arg"; "config_name"] -> ~ In k (map fst cls) ->
  (forall old fs, In (Unpickle old fs) es -> incl fs (functions cls)) ->
  read attr (run cls es) acc fits k = Err AttributeError.
Proof.
  intros es acc k Ha Hk Hc Hf. unfold read. replace (inb string_dec k (p_class (run cls es))) with false.
  - replace (inb string_dec k acc) with false; [reflexivity|]. symmetry. apply inb_false. intros X.
    assert (F : In k (functions cls)) by (apply acc_run in Ha; destruct Ha as [[-> _]|[old Ha]]; [exact X|now apply (Hf old acc Ha)]).
    apply in_functions in F. apply Hc. apply in_map_iff. now exists (k, Function).
  - symmetry. apply inb_false. intros X. apply class_run in X. destruct X as [_ X]. apply in_shared in X. destruct X as [X|[X [_ Y]]].
    + apply Hc. apply in_map_iff. now exists (k, Property).
    + cbn in Hk. repeat (destruct Hk as [<-|Hk]; [cbn in X, Y; intuition discriminate|]). contradiction.
Qed.
End P.
Print Assumptions C219_attributes.
Print Assumptions C219_functions.
Print Assumptions C219_loaded_refuted.
Print Assumptions C219_results_refuted.

(** some names of Fits; two configurations *)
Example C219_example :
  let cls := [("performfit", Function); ("dataset", Property); ("res_df", Property); ("ID", Property); ("calc", Function)] in
  let attr (o : nat) (k : string) := if String.eqb k "nothing" then Err AttributeError else Ok (o, k) in
  let fits := [("a", 5); ("b", 6)] in
  let fs := functions cls in
  NoDup (map fst cls) /\ fs = ["performfit"; "calc"] /\
  read attr (run cls [Unpickle false fs]) fs fits "res_df" = Err AttributeError /\
  read attr (run cls [Unpickle false fs]) fs fits "performfit" = Ok (Callbacks "performfit") /\
  read attr (run cls [Unpickle false fs; New]) fs fits "res_df" = Ok (Values [("a", (5, "res_df")); ("b", (6, "res_df"))]) /\
  read attr (run cls [Unpickle true fs]) fs fits "verbose" = Ok (Values [("a", (5, "verbose")); ("b", (6, "verbose"))]) /\
  read attr (run cls [New]) fs fits "dataset" = Ok (Values [("a", (5, "dataset")); ("b", (6, "dataset"))]) /\
  read attr (run cls [New; Unpickle true fs]) fs fits "res_dict" = Err AttributeError.
Proof.
  cbv zeta. split; [repeat constructor; cbn; intuition discriminate|]. repeat split; reflexivity.
Qed.
