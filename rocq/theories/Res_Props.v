(** C116-C120: residuals and results of a fit *)
From Coq Require Import ZArith Reals Bool Lia Lra Permutation Sorted Arith String List.
From Verif Require Import Base GF_Model Fit_Model Fit_Spec Fit_Proofs Fit2_Proofs Fit3_Proofs Fit4_Proofs Fit5_Proofs
  Res_Model Res_Spec Res_Proofs Res2_Proofs.
Import ListNotations.
Local Open Scope list_scope.

(** ** C116 *)
(** The residuals: for each observation, once, the weighted difference of the model, evaluated with the
    parameter values of the groups of this observation, and the measurement; [parts]: the values of the
    parameters, one after the other in the vector [x]. *)
Theorem C116_residuals : forall (V A : Type) mul sub one (model : list (option V) -> A -> V) gi index rows sig weights dyns x d a0,
  gi <> [] -> length index = length gi -> length rows = length gi -> length sig = length gi ->
  (forall c, weights = Some c -> length c = length gi) -> (forall c, In c dyns -> refines gi c) ->
  length x = total (map (fun c => length (uniq c)) dyns) ->
  exists parts, concat parts = x /\ map (@length V) parts = map (fun c => length (uniq c)) dyns /\
  exists order, Permutation order (seq 0 (length gi)) /\
  residual_fun mul sub one model gi index rows sig weights dyns x =
  Ok (map (fun i => mul (match weights with Some c => nth i c d | None => one end)
                        (sub (model (map (fun p => Some (value_at d p i)) (combine dyns parts)) (nth i rows a0)) (nth i sig d))) order).
Proof.
  intros V A mul sub one model gi index rows sig weights dyns x d a0 H1 H2 H3 H4 H5 H6 H7.
  destruct (residual_fun_ok mul sub one model gi index rows sig weights dyns x d a0 H1 H2 H3 H4 H5 H6 H7) as (parts & E1 & E2 & E3).
  exists parts. split; [exact E1|]. split; [exact E2|]. exists (processing_order gi). split; [apply processing_order_perm|exact E3].
Qed.
Print Assumptions C116_residuals.

(** The sum of squares that is minimised. *)
Theorem C116_objective : forall (A : Type) (model : list (option R) -> A -> R) gi index rows sig weights dyns x a0,
  gi <> [] -> length index = length gi -> length rows = length gi -> length sig = length gi ->
  (forall c, weights = Some c -> length c = length gi) -> (forall c, In c dyns -> refines gi c) ->
  length x = total (map (fun c => length (uniq c)) dyns) ->
  exists parts res, concat parts = x /\ map (@length R) parts = map (fun c => length (uniq c)) dyns /\
  residual_fun Rmult Rminus 1%R model gi index rows sig weights dyns x = Ok res /\
  sumR (map (fun r => (r * r)%R) res) =
  sumR (map (fun i => Rsqr (match weights with Some c => nth i c 0%R | None => 1%R end *
                            (model (map (fun p => Some (value_at 0%R p i)) (combine dyns parts)) (nth i rows a0) - nth i sig 0)))%R
            (seq 0 (length gi))).
Proof.
  intros A model gi index rows sig weights dyns x a0 H1 H2 H3 H4 H5 H6 H7.
  destruct (residual_fun_ok Rmult Rminus 1%R model gi index rows sig weights dyns x 0%R a0 H1 H2 H3 H4 H5 H6 H7) as (parts & E1 & E2 & E3).
  exists parts. eexists. split; [exact E1|]. split; [exact E2|]. split; [exact E3|].
  rewrite map_map. apply sumR_perm. apply Permutation_map with (f := fun i => _). apply processing_order_perm.
Qed.
Print Assumptions C116_objective.

(** three observations (the first and the last of one group), two parameters *)
Example C116_example : residual_fun Z.mul Z.sub 1%Z (fun l (a : Z) => fold_right (fun v s => match v with Some v => v + s | None => s end)%Z a l)
  [11; 12; 11]%Z [5; 6; 7]%Z [10; 20; 30]%Z [1; 2; 3]%Z (Some [1; 1; 2]%Z) [[1; 1; 1]; [1; 2; 1]]%Z [100; 1000; 2000]%Z =
  Ok [1109; 2 * 1127; 2118]%Z.
Proof. reflexivity. Qed.

(** ** C117 *)
(** The table has one row for each observation, with its index and the model value of this observation ... *)
Theorem C117_rows : forall (V A : Type) (model : list (option V) -> A -> V) gi index rows ps d a0,
  gi <> [] -> length index = length gi -> length rows = length gi ->
  (forall p, In p ps -> length (fst p) = length gi /\ length (snd p) = length (uniq (fst p))) ->
  exists order, Permutation order (seq 0 (length gi)) /\ (order = seq 0 (length gi) <-> contiguous gi) /\
  calc_model model gi index rows ps =
  Ok (map (fun i => (nth i index 0%Z, model (map (fun p => Some (value_at d p i)) ps) (nth i rows a0))) order).
Proof.
  intros V A model gi index rows ps d a0 H1 H2 H3 H4. exists (processing_order gi).
  split; [apply processing_order_perm|]. split; [|apply calc_model_ok; auto].
  split; [apply seq_order|apply processing_order_contiguous].
Qed.
Print Assumptions C117_rows.

(** ... but in general not in the order of the dataset (unless the combined groups are contiguous, see above) *)
Theorem C117_order_refuted : exists gi index rows ps t,
  sorted index /\ length index = length gi /\
  calc_model (fun _ (a : Z) => a) gi index rows ps = Ok t /\ map fst t <> index.
Proof.
  exists [1; 2; 1]%Z, [5; 6; 7]%Z, [10; 20; 30]%Z, [([1; 2; 1]%Z, [0; 0]%Z)]. eexists.
  split; [repeat constructor; lia|]. split; [reflexivity|]. split; [reflexivity|]. simpl. congruence.
Qed.
Print Assumptions C117_order_refuted.

Example C117_example : calc_model (fun l (a : Z) => fold_right (fun v s => match v with Some v => v + s | None => s end)%Z a l)
  [1; 2; 1]%Z [5; 6; 7]%Z [10; 20; 30]%Z [([1; 2; 1]%Z, [100; 200]%Z)] = Ok [(5, 110); (7, 130); (6, 220)]%Z.
Proof. reflexivity. Qed.

(** ** C118 *)
(** The table of the results has one row for each date, with the value that was used for the first
    processed observation of this date. *)
Theorem C118_res_df : forall (V : Type) gi index (p : list Z * list V) d, gi <> [] -> length index = length gi ->
  length (fst p) = length gi -> length (snd p) = length (uniq (fst p)) -> sorted index ->
  exists df, res_df gi index (fst p) (snd p) = Ok df /\ map fst df = uniq index /\
    forall t v, In (t, v) df -> exists i, first_of_date gi index t i /\ v = Some (value_at d p i).
Proof. intros V gi index p d H1 H2 H3 H4 H5. apply res_df_ok; auto. split; auto. Qed.
Print Assumptions C118_res_df.

(** If all observations of a date belong to the same group of the parameter, it is the value of each of them. *)
Theorem C118_dates : forall (V : Type) gi index (p : list Z * list V) d, gi <> [] -> length index = length gi ->
  length (fst p) = length gi -> length (snd p) = length (uniq (fst p)) -> sorted index ->
  (forall i j, (i < length gi)%nat -> (j < length gi)%nat -> nth i index 0%Z = nth j index 0%Z -> nth i (fst p) 0%Z = nth j (fst p) 0%Z) ->
  exists df, res_df gi index (fst p) (snd p) = Ok df /\
    forall i, (i < length gi)%nat -> In (nth i index 0%Z, Some (value_at d p i)) df.
Proof.
  intros V gi index p d H1 H2 H3 H4 H5 H6.
  destruct (C118_res_df V gi index p d H1 H2 H3 H4 H5) as (df & E & K & F). exists df. split; [exact E|].
  intros i Hi. assert (In (nth i index 0%Z) (map fst df)) as I by (rewrite K; apply in_uniq, nth_In; lia).
  apply in_map_iff in I. destruct I as ([t v] & Et & Iv). cbn [fst] in Et. subst t.
  destruct (F _ _ Iv) as (j & (a & b & Eo & Ej & _) & ->).
  assert (j < length gi)%nat as Hj.
  { assert (In j (processing_order gi)) as Io by (rewrite Eo; apply in_or_app; right; left; reflexivity).
    apply (Permutation_in _ (processing_order_perm gi)) in Io. apply in_seq in Io. lia. }
  replace (value_at d p i) with (value_at d p j); [exact Iv|].
  unfold value_at. rewrite (H6 i j Hi Hj) by auto. reflexivity.
Qed.
Print Assumptions C118_dates.

(** otherwise the value that was used for some observation is not in the table *)
Theorem C118_refuted : exists gi index (p : list Z * list string) df i, sorted index /\ length index = length gi /\
  refines gi (fst p) /\ length (snd p) = length (uniq (fst p)) /\ res_df gi index (fst p) (snd p) = Ok df /\
  (i < length gi)%nat /\ forall t, ~ In (t, Some (value_at ""%string p i)) df.
Proof.
  exists [1; 2]%Z, [5; 5]%Z, ([1; 2]%Z, ["a"; "b"]%string). eexists. exists 1%nat.
  split; [repeat constructor; lia|]. split; [reflexivity|].
  split; [split; [reflexivity|]|].
  - intros [|[|i]] [|[|j]] Hi Hj; simpl in *; try lia.
  - split; [reflexivity|]. split; [reflexivity|]. split; [simpl; lia|]. intros t [E|[]]. discriminate.
Qed.
Print Assumptions C118_refuted.

Example C118_example : res_df [1; 2; 1; 2]%Z [5; 5; 6; 7]%Z [1; 1; 1; 2]%Z ["a"; "b"]%string =
  Ok [(5, Some "a"); (6, Some "a"); (7, Some "b")]%Z%string.
Proof. reflexivity. Qed.

(** ** C119 *)
(** The table of the results by groups: one row for each combined group (in the order of appearance), with the
    mean date of its observations and the value used for all of them. *)
Theorem C119_res_df_group : forall (V : Type) gi index (p : list Z * list V) d, length index = length gi -> refines gi (fst p) ->
  length (snd p) = length (uniq (fst p)) ->
  exists df, res_df_group gi index (fst p) (snd p) = Ok df /\ length df = length (uniq gi) /\
  forall k, (k < length (uniq gi))%nat -> exists m v, nth_error df k = Some (m, Some v) /\
    meandatetime (map (fun i => nth i index 0%Z) (members gi (nth k (uniq gi) 0%Z))) = Ok m /\
    forall i, In i (members gi (nth k (uniq gi) 0%Z)) -> value_at d p i = v.
Proof. intros V gi index p d H1 H2 H3. apply res_df_group_ok; auto. Qed.
Print Assumptions C119_res_df_group.

Example C119_example : res_df_group [11; 12; 11; 22]%Z [0; 10; 20; 30]%Z [1; 1; 1; 2]%Z ["a"; "b"]%string =
  Ok [(10, Some "a"); (10, Some "a"); (30, Some "b")]%Z%string.
Proof. reflexivity. Qed.

(** ** C120 *)
(** The nodes of the interpolation: one for each run of consecutive observations of the same group, provided that
    a parameter whose groups appear in increasing order has contiguous groups. *)
Theorem C120_nodes : forall (V : Type) gi index dyn (val : list V), length index = length dyn -> length gi = length dyn ->
  length val = length (uniq dyn) -> (sorted (group_values gi dyn) -> contiguous dyn) ->
  exists segs nodes, is_runs dyn segs /\ interp_nodes gi index dyn val = Ok nodes /\ nodes_of index dyn val segs nodes.
Proof.
  intros V gi index dyn val H1 H2 H3 H4.
  destruct (is_monotonic (group_values gi dyn)) eqn:M.
  - apply is_monotonic_sorted in M. destruct (interp_groups gi index dyn val H1 H2 H3 M) as (nodes & E & N).
    exists (rowsets dyn), nodes. split; [apply rowsets_is_runs, H4, M|auto].
  - apply interp_runs; auto. intros S. apply is_monotonic_sorted in S. congruence.
Qed.
Print Assumptions C120_nodes.

(** Groups that recur (for example ascending and descending orbits, numbered in the order of appearance): the
    check for increasing numbers looks at each combined group once, so that one node at the mean date of all
    observations of a group is used instead of one for each run. *)
Theorem C120_recurring_refuted : exists gi index dyn (val : list string) nodes, length index = length dyn /\ length gi = length dyn /\
  length val = length (uniq dyn) /\ refines gi dyn /\ interp_nodes gi index dyn val = Ok nodes /\
  forall segs, is_runs dyn segs -> ~ nodes_of index dyn val segs nodes.
Proof.
  exists [1; 2; 1; 2]%Z, [0; 1; 2; 3]%Z, [1; 2; 1; 2]%Z, ["a"; "b"]%string. eexists.
  split; [reflexivity|]. split; [reflexivity|]. split; [reflexivity|]. split; [split; auto|]. split; [reflexivity|].
  intros segs (C & E & D) [L _]. simpl in L, C. destruct segs as [|s1 [|s2 [|s3 r]]]; try discriminate.
  cbn [concat] in C. rewrite app_nil_r in C.
  destruct (E s1 (or_introl eq_refl)) as [_ E1]. destruct (E s2 (or_intror (or_introl eq_refl))) as [_ E2].
  destruct s1 as [|a [|b s1]].
  - cbn in C. subst s2. specialize (E2 0%nat 1%nat (or_introl eq_refl) (or_intror (or_introl eq_refl))). discriminate.
  - cbn in C. injection C as -> ->. specialize (E2 1%nat 2%nat (or_introl eq_refl) (or_intror (or_introl eq_refl))). discriminate.
  - cbn in C. injection C as -> -> _. specialize (E1 0%nat 1%nat (or_introl eq_refl) (or_intror (or_introl eq_refl))). discriminate.
Qed.
Print Assumptions C120_recurring_refuted.

(** groups that appear in a different order are handled by their runs *)
Example C120_example : interp_nodes [2; 1; 2; 1]%Z [0; 1; 2; 3]%Z [2; 1; 2; 1]%Z ["a"; "b"]%string =
  Ok [(0, Some "a"); (1, Some "b"); (2, Some "a"); (3, Some "b")]%Z%string /\
  interp_nodes [1; 2; 1; 2]%Z [0; 1; 2; 3]%Z [1; 2; 1; 2]%Z ["a"; "b"]%string = Ok [(1, Some "a"); (2, Some "b")]%Z%string.
Proof. split; reflexivity. Qed.
