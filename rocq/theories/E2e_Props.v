(** C177: tables are stored in one piece; C178: what is read after any number of runs. *)
From Coq Require Import String List ZArith Arith Bool Permutation Lia.
From Verif Require Import Base Base_Proofs Str_Model Ids_Model Ids_Spec Ids_Props Pip_Model Pip_Spec Pip_Proofs Pip_Props Pip5_Proofs Pag_Model Pag_Spec Pag_Props E2e_Model E2e_Spec E2e_Proofs.
Import ListNotations.
Local Open Scope list_scope.

(** ** C177 *)
(** After a complete run the container holds the tables of all tasks one after the other, each in one piece and in its
    order, whatever the number of processes and their interleaving. *)
Theorem C177_whole (Job Row : Type) (p : @params Job Row) (jobs : list Job) (kind : string -> bool) (es : list event) (s : state) :
  1 <= n_combiner p -> 1 <= n_writer p -> (forall j, In j jobs -> good_task kind (what p j)) ->
  undisturbed es -> executes p jobs es s -> main s = PEnd ->
  exists ts, Permutation ts (flat_map (job_tables p) jobs) /\ store s = written ts.
Proof. apply whole. Qed.
Print Assumptions C177_whole.

(** At any time of any execution, whatever fails or interrupts it: whole tables only. *)
Theorem C177_interrupted (Job Row : Type) (p : @params Job Row) (jobs : list Job) (kind : string -> bool) (es : list event) (s : state) :
  (forall j, In j jobs -> good_task kind (what p j)) -> executes p jobs es s ->
  exists ts lost, store s = written ts /\ Permutation (ts ++ lost) (flat_map (job_tables p) jobs).
Proof.
  intros GT X. destruct (ghost_run p jobs es s X) as (g & G & _ & GS). exists (store g).
  destruct (run_rows (gparams p) es _ g G) as [l1 P1]. rewrite init_rows in P1. unfold allrows in P1.
  exists (flat_map (jrows (gparams p)) (todo g) ++ flat_map (jrows (gparams p)) (running g) ++ flat_map mrows (queue g)
    ++ flat_map xrows (combs g) ++ flat_map brows (outq g) ++ flat_map wrows (writers g) ++ l1).
  split; [exact GS|]. replace (flat_map (job_tables p) jobs) with (flat_map (jrows (gparams p)) jobs).
  - rewrite P1. Perm_Tac.perm.
  - assert (GG : forall j, In j jobs -> good_task kind (what (gparams p) j)) by (intros j Hj; apply good_gout, GT, Hj).
    assert (Z : forall l, (forall j, In j l -> In j jobs) -> flat_map (jrows (gparams p)) l = flat_map (job_tables p) l); [|apply Z; auto].
    induction l as [|j l IH]; intros I; [reflexivity|]. cbn. rewrite IH by (intros; apply I; right; assumption). f_equal.
    rewrite (jrows_good (gparams p) jobs kind GG j) by (apply I; left; reflexivity). apply (ghost_rows p j kind). apply GT, I. left; reflexivity.
Qed.
Print Assumptions C177_interrupted.

(** So if the rows carry the number of their task, then at any time, also after a crash, a table holds either no row of a
    task or all of them, in their order. *)
Theorem C177_all_or_nothing (V Arg : Type) (name_of : V -> string) (raw_id : Arg -> string) (p : @params (Arg * Z) (prow V))
    (jobs : list (Arg * Z)) (kind : string -> bool) (es : list event) (s : state) :
  NoDup (map snd jobs) -> (forall j, In j jobs -> good_task kind (what p j)) -> (forall j, In j jobs -> sound_task name_of raw_id p j) ->
  executes p jobs es s -> forall j k, In j jobs ->
  let found := filter (fun x => String.eqb (fst x) k && Z.eqb (p_id (snd x)) (snd j)) (store s) in
  found = [] \/ found = map (pair k) (select k (job_tables p j)).
Proof.
  intros ND GT ST X j k J found. destruct (C177_interrupted _ _ p jobs kind es s GT X) as (ts & lost & S & P).
  destruct (parts_of_jobs name_of raw_id p jobs ST k (snd j) jobs (fun _ H => H) ND) as (A & _ & C).
  specialize (C j J eq_refl). assert (Q : flat_map (part k (snd j)) (ts ++ lost) = map (pair k) (select k (job_tables p j))) by (rewrite <- C; apply flat_map_one; assumption).
  unfold found. rewrite S. change (filter _ (written ts)) with (filter (hits k (snd j)) (written ts)). rewrite filter_written.
  assert (L : List.length (filter (ne (part k (snd j))) (ts ++ lost)) <= 1) by (rewrite (Permutation_length (filter_perm (ne (part k (snd j))) _ _ P)); exact A).
  rewrite filter_app, app_length in L. rewrite flat_map_app in Q. rewrite (flat_map_ne _ ts), (flat_map_ne _ lost) in Q. rewrite (flat_map_ne _ ts).
  destruct (filter (ne (part k (snd j))) ts) as [|x l]; [left; reflexivity|right]. destruct (filter (ne (part k (snd j))) lost); [|cbn in L; lia].
  rewrite (app_nil_r _ : _ ++ flat_map (part k (snd j)) [] = _) in Q. exact Q.
Qed.
Print Assumptions C177_all_or_nothing.

(** ** C178 *)
Lemma rows_of_hits {V} (c : @container V) k n :
  Pag_Spec.rows_of (table k c) [n] = map (fun x => content (snd x)) (filter (hits k n) (rows c)).
Proof.
  unfold Pag_Spec.rows_of, table. induction (rows c) as [|[k' r] l IH]; [reflexivity|]. cbn [filter fst]. unfold hits at 1. cbn [fst snd].
  destruct (String.eqb k' k); cbn; [|exact IH]. rewrite orb_false_r. destruct (Z.eqb (p_id r) n); cbn; [f_equal|]; exact IH.
Qed.
Lemma frame_numbers {V} (name_of : V -> string) (c : @container V) : map fst (ids_frame name_of c) = stored_nums (file_of name_of c).
Proof. unfold ids_frame, stored_nums. destruct (file_of name_of c); cbn; try reflexivity. rewrite map_map. reflexivity. Qed.
Lemma frame_names {V} (name_of : V -> string) (c : @container V) : map snd (ids_frame name_of c) = map get_ID (stored_ids (file_of name_of c)).
Proof. unfold ids_frame, stored_ids. destruct (file_of name_of c); cbn; try reflexivity. rewrite !map_map. reflexivity. Qed.
Lemma numeric_table {V Arg} name_of (raw_id feature_id : Arg -> string) ok (c : @container V) log k :
  inv name_of raw_id feature_id ok c log -> numeric (table k c).
Proof. intros I r H. unfold table in H. apply in_map_iff in H as (x & <- & H). apply filter_In in H as [H _]. apply (i_num _ _ _ _ _ _ I x H). Qed.
Lemma in_frame {V Arg} name_of (raw_id feature_id : Arg -> string) ok (c : @container V) log a n tabs :
  inv name_of raw_id feature_id ok c log -> In (a, n, tabs) log -> In (n, get_ID (raw_id a)) (ids_frame name_of c).
Proof.
  intros I H. destruct (i_log _ _ _ _ _ _ I a n tabs H) as [X _]. unfold ids_frame. destruct (file_of name_of c); cbn in X; try contradiction.
  apply in_map_iff. exists (raw_id a, n). auto.
Qed.

(** After any number of complete runs: reading a table for the number of a feature returns exactly the rows the task of
    this feature returned for this table, in their order. *)
Theorem C178_by_number : forall V Arg name_of (raw_id feature_id : Arg -> string) ok (c : @container V) log a n tabs multi sid k,
  runs name_of raw_id feature_id ok c log -> In (a, n, tabs) log ->
  exists page, read_number name_of multi sid c k n = Ok page /\ map content page = map content (select k tabs) /\
    (forall r, In r page -> p_named r = sid).
Proof.
  intros V Arg name_of raw_id feature_id ok c log a n tabs multi sid k R H. assert (I := runs_inv name_of raw_id feature_id ok c log R).
  destruct (C99_single_id V multi sid (table k c) (map fst (ids_frame name_of c)) n (numeric_table _ _ _ _ _ _ k I)) as (pg & E & C & N).
  { apply (in_map fst _ _ (in_frame _ _ _ _ _ _ a n tabs I H)). }
  exists pg. split; [exact E|]. split; [|exact N]. rewrite C, rows_of_hits, (proj2 (i_log _ _ _ _ _ _ I a n tabs H) k), map_map. reflexivity.
Qed.
Print Assumptions C178_by_number.

(** The same with the ID of the feature, if IDs are told apart (default names, no ID twice in the arguments of a run). *)
Theorem C178_by_name : forall V Arg name_of (raw_id : Arg -> string) (c : @container V) log a n tabs multi sid k,
  runs name_of raw_id (default_feature raw_id) (fun args => NoDup (map (fun a => get_ID (raw_id a)) args)) c log -> In (a, n, tabs) log ->
  exists page, read_name name_of multi sid c k (get_ID (raw_id a)) = Ok page /\ map content page = map content (select k tabs).
Proof.
  intros V Arg name_of raw_id c log a n tabs multi sid k R H. assert (I := runs_inv _ _ _ _ c log R).
  destruct (C99_single_name V multi sid (table k c) (ids_frame name_of c) n (get_ID (raw_id a)) (numeric_table _ _ _ _ _ _ k I)) as (pg & E & C).
  - rewrite frame_names. apply (C91_stored_once Arg raw_id). apply (i_hist _ _ _ _ _ _ I).
  - apply (in_frame _ _ _ _ _ _ a n tabs I H).
  - exists pg. split; [exact E|]. rewrite C, rows_of_hits, (proj2 (i_log _ _ _ _ _ _ I a n tabs H) k), map_map. reflexivity.
Qed.
Print Assumptions C178_by_name.

(** So the results of a feature do not depend on the other features, on the runs before and after, or on the numbers of
    processes, chunks and interleavings: if the contents of the tables of a task are determined by its feature, any two
    containers that hold the feature return the same contents. *)
Theorem C178_isolated : forall V Arg name_of (raw_id feature_id : Arg -> string) ok (c c' : @container V) log log' a n n' tabs tabs' multi multi' sid sid' k
    (contents : Arg -> list (string * list V)),
  runs name_of raw_id feature_id ok c log -> runs name_of raw_id feature_id ok c' log' ->
  (forall b m ts, In (b, m, ts) (log ++ log') -> ts = map (fun t => (fst t, map (mkrow m false) (snd t))) (contents b)) ->
  In (a, n, tabs) log -> In (a, n', tabs') log' ->
  exists page page', read_number name_of multi sid c k n = Ok page /\ read_number name_of multi' sid' c' k n' = Ok page' /\
    map p_val page = map p_val page' /\ map p_val page = select k (contents a).
Proof.
  intros V Arg name_of raw_id feature_id ok c c' log log' a n n' tabs tabs' multi multi' sid sid' k contents R R' D H H'.
  destruct (C178_by_number V Arg name_of raw_id feature_id ok c log a n tabs multi sid k R H) as (pg & E & C & _).
  destruct (C178_by_number V Arg name_of raw_id feature_id ok c' log' a n' tabs' multi' sid' k R' H') as (pg' & E' & C' & _).
  assert (X : forall m l (ts : list (string * list V)), map content l = map content (select k (map (fun t => (fst t, map (mkrow m false) (snd t))) ts)) -> map p_val l = select k ts).
  { clear. intros m l ts X. assert (Y : map snd (map content l) = map p_val l) by (rewrite map_map; reflexivity). rewrite <- Y, X, map_map. cbn. clear.
    unfold select. induction ts as [|[k' r] ts IH]; [reflexivity|]. cbn. rewrite map_app, IH. f_equal. destruct (String.eqb k' k); [|reflexivity]. rewrite map_map. apply map_id. }
  rewrite (D a n tabs) in C by (apply in_app_iff; left; exact H). rewrite (D a n' tabs') in C' by (apply in_app_iff; right; exact H').
  exists pg, pg'. split; [exact E|]. split; [exact E'|]. rewrite (X _ _ _ C), (X _ _ _ C'). split; reflexivity.
Qed.
Print Assumptions C178_isolated.

(** Every row in the container belongs to a feature processed with success: nothing else is there. *)
Theorem C178_nothing_else : forall V Arg name_of (raw_id feature_id : Arg -> string) ok (c : @container V) log k r,
  runs name_of raw_id feature_id ok c log -> In (k, r) (rows c) ->
  exists a n tabs l, In (a, n, tabs) log /\ p_id r = n /\ In (k, l) tabs /\ In r l.
Proof.
  intros V Arg name_of raw_id feature_id ok c log k r R. induction R as [|c log args todo p kind es s created R IH OK CI NC NW GT ST U X M]; [intros []|].
  rewrite rows_append. intros H. apply in_app_iff in H as [H|H].
  - destruct (IH H) as (a & n & tabs & l & Z1 & Z2). exists a, n, tabs, l. split; [apply in_app_iff; left; exact Z1|exact Z2].
  - destruct (whole p todo kind es s NC NW GT U X M) as (ts & P & S). rewrite S in H. apply in_written in H as (l & T & L).
    apply (Permutation_in _ P) in T. apply in_flat_map in T as ([a n] & J & T). exists a, n, (job_tables p (a, n)), l.
    split; [|split; [apply (table_ids name_of raw_id p todo ST (a, n) k l r J T L)|split; assumption]].
    apply in_app_iff. right. apply in_flat_map. exists (a, n). split; [exact J|]. unfold job_tables in *. destruct (what p (a, n)) as [| |[]]; try contradiction. left. reflexivity.
Qed.
Print Assumptions C178_nothing_else.

(** ** a concrete history: two features, the second one fails; then a run for the first and a third one *)
Definition e2_row (a : string) (n : Z) (x : nat) : prow (string * nat) := mkrow n false (a, x).
Definition e2_dict (j : string * Z) : @result (prow (string * nat)) :=
  [("const__reader_arg", Leaf (Frame [e2_row (fst j) (snd j) 0])); ("dataset", Leaf (Frame [e2_row "" (snd j) 5; e2_row "" (snd j) 6]))]%string.
Definition e2_params : @params (string * Z) (prow (string * nat)) :=
  mkparams 1 1 1 1 1 (fun j => if String.eqb (fst j) "b" then Raises else Returns (MDict (e2_dict j))).
Definition e2_events : list event :=
  (ex_start ++ ex_combine ++ [SStep 0; SStep 0; SStep 0; Main; CStep 0; CStep 0; Main; SStep 0; Main])%list.
Lemma e2_undisturbed : undisturbed e2_events.
Proof. split; [|intros w]; cbn; intros H; repeat (destruct H as [H|H]; [discriminate|]); exact H. Qed.
Lemma e2_good j : good_task ex_kind (what e2_params j).
Proof.
  unfold e2_params. cbn [what]. destruct (String.eqb (fst j) "b"); [exact I|]. split; [|split].
  - intros n c [H|[H|[]]]; inversion H; subst; cbn; intuition discriminate.
  - intros n d [H|[H|[]]]; inversion H.
  - intros k v [H|[H|[]]]; inversion H; reflexivity.
Qed.
Lemma e2_sound j : sound_task fst (fun s : string => s) e2_params j.
Proof.
  unfold sound_task, job_rows, job_tables, e2_params. cbn [what]. destruct (String.eqb (fst j) "b"); [split; [intros k r []|discriminate]|]. split.
  - intros k r [H|[H|[H|[]]]]; inversion H; split; reflexivity.
  - intros d E. injection E as <-. split; [|exists (fst j, 0); split; reflexivity].
    cbn. constructor; [intros [H|[]]; discriminate|]. constructor; [intros []|constructor].
Qed.
Definition e2_ok (args : list string) : Prop := NoDup (map (fun a => get_ID a) args).
Lemma e2_run1 : exists c log, runs fst (fun s : string => s) (default_feature (fun s => s)) e2_ok c log /\
  c = Some [("reader_arg", e2_row "a" 0 0); ("dataset", e2_row "" 0 5); ("dataset", e2_row "" 0 6)]%string /\
  log = [("a"%string, 0%Z, [("reader_arg", [e2_row "a" 0 0]); ("dataset", [e2_row "" 0 5; e2_row "" 0 6])]%string)].
Proof.
  eexists. eexists. split; [eapply (runs_run fst (fun s : string => s) (default_feature (fun s => s)) e2_ok None [] ["a"; "b"]%string
     [("a"%string, 0%Z); ("b"%string, 1%Z)] e2_params ex_kind ex_events _ false)|].
  - apply runs_new.
  - unfold e2_ok. vm_compute. constructor; [intros [H|[]]; discriminate|]. constructor; [intros []|constructor].
  - reflexivity.
  - cbn; lia.
  - cbn; lia.
  - intros j _. apply e2_good.
  - intros j _. apply e2_sound.
  - apply ex_undisturbed.
  - vm_compute. reflexivity.
  - reflexivity.
  - vm_compute. split; reflexivity.
Qed.
Example C178_example : exists c log, runs fst (fun s : string => s) (default_feature (fun s => s)) e2_ok c log /\
  map fst log = [("a"%string, 0%Z); ("c"%string, 1%Z)] /\
  read_name fst true false c "dataset" "a" = Ok [e2_row "" 0 5; e2_row "" 0 6] /\
  read_number fst true false c "dataset" 1 = Ok [e2_row "" 1 5; e2_row "" 1 6].
Proof.
  destruct e2_run1 as (c & log & R & Ec & El). eexists. eexists.
  split; [eapply (runs_run fst (fun s : string => s) (default_feature (fun s => s)) e2_ok c log ["a"; "c"]%string [("c"%string, 1%Z)] e2_params ex_kind e2_events _ false)|].
  - exact R.
  - unfold e2_ok. vm_compute. constructor; [intros [H|[]]; discriminate|]. constructor; [intros []|constructor].
  - rewrite Ec. vm_compute. reflexivity.
  - cbn; lia.
  - cbn; lia.
  - intros j _. apply e2_good.
  - intros j _. apply e2_sound.
  - apply e2_undisturbed.
  - vm_compute. reflexivity.
  - reflexivity.
  - rewrite Ec, El. vm_compute. repeat split.
Qed.
Example C177_example : exists s, executes e2_params [("a"%string, 0%Z); ("b"%string, 1%Z)] (ex_start ++ ex_combine ++ [SStep 0; SFail 0])%list s /\
  flat_map (job_tables e2_params) [("a"%string, 0%Z); ("b"%string, 1%Z)] = [("reader_arg", [e2_row "a" 0 0]); ("dataset", [e2_row "" 0 5; e2_row "" 0 6])]%string /\
  store s = written [("reader_arg", [e2_row "a" 0 0])]%string.
Proof. eexists. split; [vm_compute; reflexivity|]. split; vm_compute; reflexivity. Qed.
