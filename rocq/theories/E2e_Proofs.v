(** Proofs for C177, C178 *)
From Coq Require Import String List ZArith Arith Bool Permutation Lia.
From Verif Require Import Base Base_Proofs Str_Model Ids_Model Ids_Spec Ids_Props Pip_Model Pip_Spec Pip_Proofs Pip_Props Pip5_Proofs Pag_Model E2e_Model E2e_Spec.
Import ListNotations.
Local Open Scope list_scope.

Section T.
Context {Job Row : Type}.
Lemma written_expand (ts : list (string * list Row)) : expand ts = written ts.
Proof. reflexivity. Qed.

Lemma ghost_rows (p : @params Job Row) j kind : good_task kind (what p j) -> job_rows (gparams p) j = job_tables p j.
Proof.
  unfold job_rows, job_tables. cbn [gparams what]. destruct (what p j) as [| |[|r|]]; cbn [gout gmsg]; try reflexivity.
  intros [_ [_ U]]. unfold result_rows. rewrite layers_gres. clear -U. induction (layers r) as [|[k v] l IH]; [reflexivity|].
  cbn [map flat_map fst snd]. rewrite IH; [|intros k' v' H; apply U; right; exact H]. specialize (U k v (or_introl eq_refl)).
  destruct v; cbn; [reflexivity|reflexivity|contradiction].
Qed.

(** a completed run stores the tables of the tasks in one piece *)
Lemma whole (p : @params Job Row) (jobs : list Job) (kind : string -> bool) (es : list event) (s : state) :
  1 <= n_combiner p -> 1 <= n_writer p -> (forall j, In j jobs -> good_task kind (what p j)) ->
  undisturbed es -> executes p jobs es s -> main s = PEnd ->
  exists ts, Permutation ts (flat_map (job_tables p) jobs) /\ store s = written ts.
Proof.
  intros Nc Nw GT U X M. destruct (ghost_run p jobs es s X) as (g & G & GM & GS). exists (store g). split; [|exact GS].
  rewrite (C48_exactly_once Job (list Row) (gparams p) jobs kind es g); auto.
  - replace (flat_map (job_rows (gparams p)) jobs) with (flat_map (job_tables p) jobs); [reflexivity|].
    clear -GT. induction jobs as [|j l IH]; [reflexivity|]. cbn. rewrite IH by (intros; apply GT; right; assumption). f_equal. symmetry. apply (ghost_rows p j kind). apply GT. left; reflexivity.
  - intros j Hj. apply good_gout, GT, Hj.
  - congruence.
Qed.

Lemma map_snd_tables (r : @result Row) : flat_map (fun kv => map (pair (fst kv)) (val_rows (snd kv))) (layers r) = written (map (fun kv => (fst kv, val_rows (snd kv))) (layers r)).
Proof. unfold written. induction (layers r) as [|x l IH]; [reflexivity|]. cbn. now rewrite IH. Qed.
Lemma job_rows_written (p : @params Job Row) j : job_rows p j = written (job_tables p j).
Proof. unfold job_rows, job_tables. destruct (what p j) as [| |[]]; try reflexivity. apply map_snd_tables. Qed.

Lemma written_app (a b : list (string * list Row)) : written (a ++ b) = written a ++ written b.
Proof. apply flat_map_app. Qed.
Lemma in_written k r (ts : list (string * list Row)) : In (k, r) (written ts) <-> exists l, In (k, l) ts /\ In r l.
Proof.
  unfold written. rewrite in_flat_map. split.
  - intros ([k' l] & H & I). apply in_map_iff in I as (y & E & I). cbn in E, I. injection E as -> ->. eauto.
  - intros (l & H & I). exists (k, l). split; [exact H|]. apply in_map. exact I.
Qed.
End T.

(** ** flat_map of a permutation with at most one part *)
Section One.
Context {A B : Type}.
Variable g : A -> list B.
Definition ne (x : A) : bool := negb (isnil (g x)).
Lemma flat_map_ne l : flat_map g l = flat_map g (filter ne l).
Proof. induction l as [|x l IH]; [reflexivity|]. cbn. unfold ne at 1. destruct (g x) eqn:E; cbn; [exact IH|]. now rewrite E, IH. Qed.
Lemma filter_perm (f : A -> bool) l m : Permutation l m -> Permutation (filter f l) (filter f m).
Proof.
  induction 1; cbn; [constructor| | |etransitivity; eassumption].
  - destruct (f x); [constructor|]; assumption.
  - destruct (f x), (f y); try reflexivity. constructor.
Qed.
Lemma flat_map_one l m : Permutation l m -> List.length (filter ne m) <= 1 -> flat_map g l = flat_map g m.
Proof.
  intros P L. rewrite (flat_map_ne l), (flat_map_ne m). assert (Q := filter_perm ne _ _ P).
  destruct (filter ne m) as [|x [|y r]]; cbn in L; [| |lia].
  - symmetry in Q. apply Permutation_nil in Q. now rewrite Q.
  - symmetry in Q. apply Permutation_length_1_inv in Q. now rewrite Q.
Qed.
End One.

Section Read.
Context {V : Type}.
(** the rows of one table and one number *)
Definition hits (k : string) (n : Z) (x : string * prow V) : bool := String.eqb (fst x) k && Z.eqb (p_id (snd x)) n.
Definition part (k : string) (n : Z) (t : string * list (prow V)) : list (string * prow V) := filter (hits k n) (map (pair (fst t)) (snd t)).

Lemma filter_written k n ts : filter (hits k n) (written ts) = flat_map (part k n) ts.
Proof. unfold written. induction ts as [|t ts IH]; [reflexivity|]. cbn. rewrite filter_app, IH. reflexivity. Qed.
Lemma part_all k n k' l : (forall r, In r l -> p_id r = n) -> part k n (k', l) = if String.eqb k' k then map (pair k) l else [].
Proof.
  intros H. unfold part, hits. cbn. destruct (String.eqb_spec k' k) as [->|N].
  - induction l as [|r l IH]; [reflexivity|]. cbn. rewrite String.eqb_refl, (H r (or_introl eq_refl)), Z.eqb_refl. cbn. f_equal. apply IH. intros; apply H; right; assumption.
  - induction l as [|r l IH]; [reflexivity|]. cbn. destruct (String.eqb_spec k' k); [contradiction|]. cbn. apply IH. intros; apply H; right; assumption.
Qed.
Lemma part_none k n n' k' l : (forall r, In r l -> p_id r = n') -> n' <> n -> part k n (k', l) = [].
Proof.
  intros H N. unfold part, hits. cbn. induction l as [|r l IH]; [reflexivity|]. cbn. rewrite (H r (or_introl eq_refl)).
  destruct (Z.eqb_spec n' n); [contradiction|]. rewrite andb_false_r. apply IH. intros; apply H; right; assumption.
Qed.
Lemma parts_select k n ts : (forall k' l r, In (k', l) ts -> In r l -> p_id r = n) -> flat_map (part k n) ts = map (pair k) (select k ts).
Proof.
  unfold select. induction ts as [|[k' l] ts IH]; intros H; [reflexivity|]. cbn [flat_map]. rewrite map_app, IH by (intros; eapply H; [right|]; eassumption).
  f_equal. rewrite (part_all k n k' l) by (intros r R; apply (H k' l r); [left; reflexivity|exact R]). cbn. destruct (String.eqb k' k); reflexivity.
Qed.
Lemma parts_none k n n' ts : (forall k' l r, In (k', l) ts -> In r l -> p_id r = n') -> n' <> n -> filter (ne (part k n)) ts = [].
Proof.
  intros H N. induction ts as [|[k' l] ts IH]; [reflexivity|]. cbn. unfold ne at 1.
  rewrite (part_none k n n' k' l) by first [exact N|intros r R; exact (H k' l r (or_introl eq_refl) R)]. cbn. apply IH. intros; eapply H; [right|]; eassumption.
Qed.
Lemma parts_le k n ts : NoDup (map fst ts) -> List.length (filter (ne (part k n)) ts) <= 1.
Proof.
  induction ts as [|[k' l] ts IH]; intros N; [cbn; lia|]. cbn in N. inversion N as [|? ? N1 N2]; subst. cbn. unfold ne at 1.
  destruct (isnil (part k n (k', l))) eqn:E; cbn; [apply IH, N2|].
  assert (Z : filter (ne (part k n)) ts = []); [|rewrite Z; cbn; lia].
  assert (k' = k). { unfold part, hits in E. cbn in E. destruct (String.eqb_spec k' k); [assumption|]. exfalso.
    assert (X : filter (fun x : string * prow V => (fst x =? k)%string && (p_id (snd x) =? n)%Z) (map (pair k') l) = []).
    { clear -n0. induction l as [|r l IH]; [reflexivity|]. cbn. destruct (String.eqb_spec k' k); [contradiction|]. exact IH. }
    unfold hits in E. rewrite X in E. discriminate. }
  subst k'. clear -N1. induction ts as [|[k' l'] ts IH]; [reflexivity|]. cbn in N1. cbn. unfold ne at 1.
  assert (X : part k n (k', l') = []).
  { unfold part, hits. cbn. assert (k' <> k) by (intros ->; apply N1; left; reflexivity). clear -H.
    induction l' as [|r l IH]; [reflexivity|]. cbn. destruct (String.eqb_spec k' k); [contradiction|]. exact IH. }
  rewrite X. cbn. apply IH. intros H. apply N1. right. exact H.
Qed.
End Read.

Section Inv.
Context {V Arg : Type}.
Variable name_of : V -> string.
Variable raw_id feature_id : Arg -> string.
Variable ok : list Arg -> Prop.
Notation params := (@params (Arg * Z) (prow V)).

Definition is_dict (p : params) (j : Arg * Z) : bool := match what p j with Returns (MDict _) => true | _ => false end.
Lemma tables_none p j : is_dict p j = false -> job_tables p j = [].
Proof. unfold is_dict, job_tables. destruct (what p j) as [| |[]]; try reflexivity. discriminate. Qed.

Section Run.
Variable p : params.
Variable todo : list (Arg * Z).
Hypothesis ND : NoDup (map snd todo).
Hypothesis ST : forall j, In j todo -> sound_task name_of raw_id p j.

Lemma table_ids j k l r : In j todo -> In (k, l) (job_tables p j) -> In r l -> p_id r = snd j /\ p_named r = false.
Proof. intros J T R. apply (proj1 (ST j J) k r). rewrite job_rows_written, in_written. eauto. Qed.
Lemma table_keys j : In j todo -> NoDup (map fst (job_tables p j)).
Proof.
  intros J. destruct (ST j J) as [_ S]. unfold job_tables. destruct (what p j) as [| |[|r|]]; try constructor. rewrite map_map. cbn.
  apply (S r eq_refl).
Qed.

Lemma parts_of_jobs k n l : (forall j, In j l -> In j todo) -> NoDup (map snd l) ->
  List.length (filter (ne (part k n)) (flat_map (job_tables p) l)) <= 1 /\
  (~ In n (map snd l) -> filter (ne (part k n)) (flat_map (job_tables p) l) = []) /\
  (forall j, In j l -> snd j = n -> flat_map (part k n) (flat_map (job_tables p) l) = map (pair k) (select k (job_tables p j))).
Proof.
  induction l as [|j l IH]; intros I N; [cbn; split; [lia|]; split; [reflexivity|intros ? []]|].
  cbn in N. inversion N as [|? ? N1 N2]; subst. destruct (IH (fun x H => I x (or_intror H)) N2) as (A & B & C). clear IH.
  assert (J : In j todo) by (apply I; left; reflexivity). cbn [flat_map map]. rewrite filter_app, app_length.
  assert (X : snd j <> n -> filter (ne (part k n)) (job_tables p j) = []).
  { intros H. apply (parts_none k n (snd j)); [|exact H]. intros k' l' r T R. apply (table_ids j k' l' r J T R). }
  destruct (Z.eq_dec (snd j) n) as [E|E].
  - assert (Y : filter (ne (part k n)) (flat_map (job_tables p) l) = []) by (apply B; rewrite <- E; exact N1). rewrite Y, app_nil_r.
    assert (L := parts_le k n (job_tables p j) (table_keys j J)).
    split; [cbn; lia|]. split; [intros H; exfalso; apply H; left; exact E|]. intros j' J' E'.
    assert (j' = j). { destruct J' as [<-|J']; [reflexivity|]. exfalso. apply N1. rewrite E, <- E'. apply in_map. exact J'. } subst j'.
    rewrite flat_map_app, (flat_map_ne (part k n) (flat_map _ l)), Y. cbn. rewrite app_nil_r.
    apply parts_select. intros k' l' r T R. rewrite <- E. apply (table_ids j k' l' r J T R).
  - rewrite (X E). cbn. split; [exact A|]. split; [intros H; apply B; tauto|]. intros j' [<-|J'] E'; [contradiction|].
    rewrite flat_map_app, (flat_map_ne (part k n) (job_tables p j)), (X E). cbn. apply C; assumption.
Qed.

Variable ts : list (string * list (prow V)).
Hypothesis P : Permutation ts (flat_map (job_tables p) todo).

Lemma read_new k j : In j todo -> filter (hits k (snd j)) (written ts) = map (pair k) (select k (job_tables p j)).
Proof.
  intros J. destruct (parts_of_jobs k (snd j) todo (fun _ H => H) ND) as (A & _ & C). rewrite filter_written, (flat_map_one _ _ _ P A). apply C; auto.
Qed.
Lemma written_from k r : In (k, r) (written ts) -> exists j, In j todo /\ is_dict p j = true /\ p_id r = snd j /\ p_named r = false.
Proof.
  intros H. apply in_written in H as (l & T & R). apply (Permutation_in _ P) in T. apply in_flat_map in T as (j & J & T).
  exists j. split; [exact J|]. split; [|apply (table_ids j k l r J T R)]. destruct (is_dict p j) eqn:E; [reflexivity|]. rewrite (tables_none p j E) in T. destruct T.
Qed.
Lemma read_other k n : ~ In n (map snd todo) -> filter (hits k n) (written ts) = [].
Proof.
  intros N. destruct (filter (hits k n) (written ts)) as [|[k' r] l] eqn:E; [reflexivity|]. exfalso.
  assert (H : In (k', r) (filter (hits k n) (written ts))) by (rewrite E; left; reflexivity). apply filter_In in H as [H1 H2].
  destruct (written_from k' r H1) as (j & J & _ & I & _). unfold hits in H2. cbn in H2. apply andb_true_iff in H2 as [_ H2]. apply Z.eqb_eq in H2.
  apply N. rewrite <- H2, I. apply in_map. exact J.
Qed.
Lemma select_app {Row} k (a b : list (string * list Row)) : select k (a ++ b) = select k a ++ select k b.
Proof. apply flat_map_app. Qed.
Lemma select_perm {Row} k (a b : list (string * list Row)) : Permutation a b -> Permutation (select k a) (select k b).
Proof. intros H. unfold select. apply Permutation_flat_map. exact H. Qed.
Lemma key_rows k : map snd (filter (fun x : string * prow V => String.eqb (fst x) k) (written ts)) = select k ts.
Proof.
  unfold written, select. clear P. induction ts as [|[k' l] r IH]; [reflexivity|]. cbn [flat_map]. rewrite filter_app, map_app, IH. f_equal. cbn.
  destruct (String.eqb k' k) eqn:E.
  - clear IH. induction l as [|x l IH]; [reflexivity|]. cbn. rewrite E. cbn. now rewrite IH.
  - clear IH. induction l as [|x l IH]; [reflexivity|]. cbn. rewrite E. exact IH.
Qed.
Definition entry (r : prow V) : string * Z := (name_of (p_val r), p_id r).
Lemma args_of_jobs l : (forall j, In j l -> In j todo) ->
  map entry (select "reader_arg" (flat_map (job_tables p) l)) = map (stored_row raw_id) (filter (is_dict p) l).
Proof.
  induction l as [|j l IH]; intros I; [reflexivity|]. cbn [flat_map filter]. rewrite select_app, map_app, IH by (intros; apply I; right; assumption).
  destruct (is_dict p j) eqn:E.
  - destruct (ST j (I j (or_introl eq_refl))) as [_ S]. unfold is_dict in E. destruct (what p j) as [| |[|d|]] eqn:W; try discriminate.
    destruct (S d eq_refl) as (_ & v & N & R). rewrite R. cbn. unfold entry, stored_row. cbn. rewrite N. reflexivity.
  - rewrite (tables_none p j E). reflexivity.
Qed.
Lemma new_args : exists done, map entry (select "reader_arg" ts) = map (stored_row raw_id) done /\ Permutation (filter (is_dict p) todo) done.
Proof.
  apply Permutation_map_inv. rewrite <- (args_of_jobs todo (fun _ H => H)). apply Permutation_map. apply select_perm. exact P.
Qed.
End Run.

Lemma rows_append created (c : @container V) new : rows (append_run created c new) = rows c ++ new.
Proof. destruct c, new as [|x new], created; reflexivity. Qed.
Lemma table_append created k (c : @container V) new : table k (append_run created c new) = table k c ++ map snd (filter (fun x : string * prow V => String.eqb (fst x) k) new).
Proof. unfold table. rewrite rows_append, filter_app, map_app. reflexivity. Qed.
Lemma rows_of_file (c : @container V) : rows_of (file_of name_of c) = map entry (table "reader_arg" c).
Proof. unfold file_of. destruct c; [|reflexivity]. destruct (table "reader_arg" (Some l)); reflexivity. Qed.

Record inv (c : @container V) (log : list (Arg * Z * list (string * list (prow V)))) : Prop := mkinv {
  i_hist : history raw_id feature_id ok (file_of name_of c);
  i_num : forall x, In x (rows c) -> p_named (snd x) = false;
  i_ids : forall x, In x (rows c) -> In (p_id (snd x)) (stored_nums (file_of name_of c));
  i_log : forall a n tabs, In (a, n, tabs) log -> In (raw_id a, n) (rows_of (file_of name_of c)) /\ forall k, filter (hits k n) (rows c) = map (pair k) (select k tabs) }.

Lemma filter_split {A} (f : A -> bool) l : Permutation (filter f l ++ filter (fun x => negb (f x)) l) l.
Proof.
  induction l as [|x l IH]; [constructor|]. cbn. destruct (f x); cbn; [constructor; exact IH|].
  rewrite <- Permutation_middle. constructor. exact IH.
Qed.

Lemma runs_inv c log : runs name_of raw_id feature_id ok c log -> inv c log.
Proof.
  induction 1 as [|c log args todo p kind es s created R IH OK CI NC NW GT ST U X M].
  { constructor; cbn; try (intros; contradiction). apply h_new. }
  destruct IH as [H1 H2 H3 H4]. destruct (check_fresh feature_id _ args todo CI) as [ND FR].
  destruct (whole p todo kind es s NC NW GT U X M) as (ts & P & S).
  destruct (new_args p todo ST ts P) as (done & E & PD).
  assert (RF : rows_of (file_of name_of (append_run created c (store s))) = rows_of (file_of name_of c) ++ map (stored_row raw_id) done).
  { rewrite !rows_of_file, table_append, map_app. f_equal. rewrite S, key_rows. exact E. }
  assert (ID : forall j, In j todo -> is_dict p j = true -> In j done).
  { intros j J D. apply (Permutation_in _ PD). apply filter_In. auto. }
  constructor.
  - assert (HR : history raw_id feature_id ok (append_rows (file_of name_of c) (map (stored_row raw_id) done))).
    { apply (h_run raw_id feature_id ok _ args todo done (filter (fun j => negb (is_dict p j)) todo)); auto. rewrite <- PD. apply filter_split. }
    destruct (file_of name_of c) eqn:F.
    + assert (c = None) by (unfold file_of in F; destruct c; [destruct (table _ _); discriminate|reflexivity]). subst c.
      destruct (file_of name_of (append_run created None (store s))) eqn:F2.
      * apply h_new.
      * apply h_fail, h_new.
      * cbn in RF. subst rows. destruct (map (stored_row raw_id) done) eqn:E2; [|exact HR]. exfalso.
        unfold file_of in F2. destruct (append_run created None (store s)); [|discriminate]. destruct (table "reader_arg" (Some l)); discriminate.
    + discriminate.
    + unfold file_of in F. destruct c as [old|]; [|discriminate]. assert (AR : append_run created (Some old) (store s) = Some (old ++ store s)) by reflexivity.
      rewrite AR in *. assert (TB := table_append created "reader_arg" (Some old) (store s)). rewrite AR in TB.
      destruct (table "reader_arg" (Some old)) as [|x l] eqn:T; [discriminate|].
      unfold file_of in *. rewrite TB in *. cbn in RF |- *. cbn in HR. rewrite RF.
      destruct (map (stored_row raw_id) done) eqn:E2; [rewrite app_nil_r; exact HR|exact HR].
  - intros [k r] H. rewrite rows_append in H. apply in_app_iff in H as [H|H]; [apply (H2 _ H)|]. rewrite S in H.
    destruct (written_from p todo ST ts P k r H) as (j & _ & _ & _ & N). exact N.
  - intros [k r] H. unfold stored_nums. rewrite RF, map_app. apply in_app_iff. rewrite rows_append in H. apply in_app_iff in H as [H|H].
    + left. apply (H3 _ H).
    + right. rewrite S in H. destruct (written_from p todo ST ts P k r H) as (j & J & D & I & _). cbn. rewrite I. rewrite map_map. cbn.
      apply (in_map snd). apply ID; assumption.
  - intros a n tabs H. apply in_app_iff in H as [H|H].
    + destruct (H4 a n tabs H) as [A B]. split; [rewrite RF; apply in_app_iff; left; exact A|]. intros k.
      rewrite rows_append, filter_app, B, S, (read_other p todo ST ts P), app_nil_r; [reflexivity|].
      intros Z. apply (FR n Z). apply (in_map snd) in A. exact A.
    + apply in_flat_map in H as (j & J & H). assert (D : is_dict p j = true /\ (a, n, tabs) = (j, job_tables p j)).
      { unfold is_dict. destruct (what p j) as [| |[|d|]]; cbn in H; try contradiction. destruct H as [H|[]]; auto. }
      destruct D as [D H']. injection H' as <- ->. split.
      * rewrite RF. apply in_app_iff. right. apply (in_map (stored_row raw_id) done (a, n)). apply ID; assumption.
      * intros k. rewrite rows_append, filter_app, S. change n with (snd (a, n)) at 2. rewrite (read_new p todo ND ST ts P k (a, n) J).
        replace (filter (hits k n) (rows c)) with (@nil (string * prow V)); [reflexivity|]. symmetry.
        destruct (filter (hits k n) (rows c)) as [|[k' r] l] eqn:E2; [reflexivity|]. exfalso.
        assert (Z : In (k', r) (filter (hits k n) (rows c))) by (rewrite E2; left; reflexivity). apply filter_In in Z as [Z1 Z2].
        unfold hits in Z2. cbn in Z2. apply andb_true_iff in Z2 as [_ Z2]. apply Z.eqb_eq in Z2. apply (FR n).
        -- apply (in_map snd _ _ J).
        -- rewrite <- Z2. apply (H3 _ Z1).
Qed.
End Inv.
