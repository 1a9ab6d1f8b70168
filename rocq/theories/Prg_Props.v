(** C169: the progress-line shows the progress of the processing. *)
From Coq Require Import ZArith QArith Lia Lqa String List Arith Bool.
From Verif Require Import Base Pip_Model Pip_Spec Pip_Proofs Pip2_Proofs Prg_Model Prg_Spec.
Import ListNotations.
Local Open Scope nat_scope.
Local Open Scope list_scope.

(** ** the bar *)
Lemma block_ok p m : block p (S m) = Ok (round_half_even (20 * Z.of_nat p # Pos.of_succ_nat m)).
Proof.
  unfold block. f_equal. unfold Qdiv, inject_Z. change (Z.of_nat (S m)) with (Zpos (Pos.of_succ_nat m)). unfold Qinv. cbn [Qnum Qden].
  unfold Qmult. cbn [Qnum Qden]. rewrite Z.mul_1_r. rewrite Pos.mul_1_l. reflexivity.
Qed.
Lemma floor_spec n d : (0 < d)%Z -> (d * (n / d) <= n < d * (n / d) + d)%Z.
Proof. intros H. pose proof (Z.div_mod n d ltac:(lia)). pose proof (Z.mod_pos_bound n d H). lia. Qed.
Lemma rhe_near a d : let k := round_half_even (a # d) in (2 * a - Zpos d <= 2 * Zpos d * k <= 2 * a + Zpos d)%Z.
Proof.
  cbv zeta. unfold round_half_even. cbn [Qnum Qden].
  pose proof (floor_spec (2 * a + Zpos d) (2 * Zpos d) ltac:(lia)) as F. pose proof (Z.div_mod (2 * a + Zpos d) (2 * Zpos d) ltac:(lia)) as M.
  set (k := ((2 * a + Zpos d) / (2 * Zpos d))%Z) in *. destruct (Z.eqb_spec ((2 * a + Zpos d) mod (2 * Zpos d)) 0) as [E|E].
  - destruct (Z.odd k); cbn [andb]; nia.
  - cbn [andb]. nia.
Qed.
Lemma rhe_mono a b d : (a <= b)%Z -> (round_half_even (a # d) <= round_half_even (b # d))%Z.
Proof.
  intros H. unfold round_half_even. cbn [Qnum Qden].
  pose proof (Z.div_le_mono (2 * a + Zpos d) (2 * b + Zpos d) (2 * Zpos d) ltac:(lia) ltac:(lia)) as L.
  pose proof (Z.div_mod (2 * a + Zpos d) (2 * Zpos d) ltac:(lia)) as Ma. pose proof (Z.div_mod (2 * b + Zpos d) (2 * Zpos d) ltac:(lia)) as Mb.
  pose proof (Z.mod_pos_bound (2 * a + Zpos d) (2 * Zpos d) ltac:(lia)) as Ba.
  set (k := ((2 * a + Zpos d) / (2 * Zpos d))%Z) in *. set (l := ((2 * b + Zpos d) / (2 * Zpos d))%Z) in *.
  set (r := ((2 * a + Zpos d) mod (2 * Zpos d))%Z) in *. set (t := ((2 * b + Zpos d) mod (2 * Zpos d))%Z) in *.
  destruct (Z.eq_dec k l) as [E|N].
  - rewrite E in *. destruct (Z.eqb_spec t 0) as [T|T].
    + assert (r = 0)%Z as -> by nia. cbn. destruct (Z.odd l); cbn; lia.
    + destruct (Z.eqb r 0 && Z.odd l); cbn [andb]; lia.
  - destruct (Z.eqb r 0 && Z.odd k), (Z.eqb t 0 && Z.odd l); lia.
Qed.
Lemma filled_times a b : filled (times true a ++ times false b) = Z.to_nat a.
Proof.
  unfold filled, times. rewrite filter_app, app_length.
  assert (A : forall n, filter (fun b : bool => b) (repeat true n) = repeat true n) by (induction n; cbn; congruence).
  assert (B : forall n, filter (fun b : bool => b) (repeat false n) = []) by (induction n; cbn; congruence).
  rewrite A, B, repeat_length. cbn. lia.
Qed.
Lemma rhe_range p m : p <= S m -> (0 <= round_half_even (20 * Z.of_nat p # Pos.of_succ_nat m) <= 20)%Z.
Proof.
  intros H. pose proof (rhe_near (20 * Z.of_nat p) (Pos.of_succ_nat m)) as Q. cbv zeta in Q. set (k := round_half_even _) in *.
  assert (E : Zpos (Pos.of_succ_nat m) = Z.of_nat (S m)) by reflexivity. rewrite E in Q. nia.
Qed.
(** unfinished work: a bar of 20 positions that shows the fraction up to half a position *)
Theorem C169_bar : forall p m, p < m -> exists bar, update_progress p m = Ok (Some (bar, p, m)) /\ length bar = 20 /\
  (Z.abs (2 * Z.of_nat m * Z.of_nat (filled bar) - 40 * Z.of_nat p) <= Z.of_nat m)%Z.
Proof.
  intros p [|m] H; [lia|]. unfold update_progress. rewrite block_ok. cbn [bind].
  destruct (Nat.leb_spec (S m) p); [lia|]. eexists. split; [reflexivity|].
  pose proof (rhe_range p m ltac:(lia)) as R. pose proof (rhe_near (20 * Z.of_nat p) (Pos.of_succ_nat m)) as Q. cbv zeta in Q.
  set (k := round_half_even _) in *. assert (E : Zpos (Pos.of_succ_nat m) = Z.of_nat (S m)) by reflexivity. rewrite E in Q. split.
  - unfold times. rewrite app_length, !repeat_length. lia.
  - rewrite filled_times, Z2Nat.id by lia. lia.
Qed.
Print Assumptions C169_bar.
(** more progress never gives a shorter bar *)
Theorem C169_monotone : forall p q m bar bar', p <= q -> update_progress p m = Ok (Some (bar, p, m)) -> update_progress q m = Ok (Some (bar', q, m)) ->
  filled bar <= filled bar'.
Proof.
  intros p q [|m] bar bar' H A B; [discriminate|]. unfold update_progress in A, B. rewrite block_ok in A, B. cbn [bind] in A, B.
  destruct (Nat.leb (S m) p); [discriminate|]. destruct (Nat.leb (S m) q); [discriminate|].
  pose proof (rhe_mono (20 * Z.of_nat p) (20 * Z.of_nat q) (Pos.of_succ_nat m) ltac:(lia)) as L.
  set (k := round_half_even (20 * Z.of_nat p # Pos.of_succ_nat m)) in *. set (k' := round_half_even (20 * Z.of_nat q # Pos.of_succ_nat m)) in *. clearbody k k'.
  injection A as <-. injection B as <-. rewrite !filled_times. lia.
Qed.
Print Assumptions C169_monotone.
(** the final message appears exactly if the maximum is reached *)
Theorem C169_final : forall p m, 1 <= m -> (update_progress p m = Ok None <-> m <= p).
Proof.
  intros p [|m] H; [lia|]. unfold update_progress. rewrite block_ok. cbn [bind]. destruct (Nat.leb_spec (S m) p); split; intros; first [reflexivity|lia|discriminate].
Qed.
Print Assumptions C169_final.

(** ** the print-thread *)
Section Print.
Context {Job Row : Type}.
Variables (p : @params Job Row) (g : Job -> nat).
Hypothesis G : forall j, length (worker_put (what p j)) <= g j.
Definition have (x : @comb Row) : nat := match c_pc x with CHave _ => 1 | _ => 0 end.
Definition left (s : @state Job Row) : nat := sumf g (todo s) + sumf g (running s).
Definition weight (s : @state Job Row) : nat := left s + length (queue s) + sumf have (combs s) + totcnt s.

Ltac upc E S := match goal with |- context [upd ?c ?y (combs ?s)] => assert (S := sumf_upd have (combs s) c _ y E) end.
Lemma step_weight e (s s' : @state Job Row) : step p e s = Some s' -> weight s' <= weight s /\ left s' <= left s /\
  (counts e s = false -> totcnt s' = totcnt s /\ meancnt s' = meancnt s).
Proof.
  intros H. destruct e; cbn [step counts] in *.
  - destruct (nth_error (todo s) i) as [j|] eqn:E; [|discriminate].
    destruct (should_wait s && Nat.ltb (List.length (running s)) (n_worker p)); [|discriminate]. injection H as <-.
    unfold weight, left. cbn. rewrite !(sumf_del g _ _ _ E), !sumf_app. cbn. lia.
  - destruct (nth_error (running s) i) as [j|] eqn:E; [|discriminate]. injection H as <-.
    unfold weight, left. cbn. rewrite !(sumf_del g _ _ _ E), app_length. pose proof (G j). lia.
  - destruct (nth_error (combs s) c) as [x|] eqn:E; [|discriminate]. unfold comb_step in H. unfold weight, left.
    destruct (c_pc x) as [| | |m| |] eqn:Epc.
    + destruct (should_stop s && isnil (queue s)); injection H as <-; cbn; upc E HS; unfold have at 2 4 in HS; rewrite Epc in HS; cbn in HS; lia.
    + destruct (stop_ s); injection H as <-; cbn; upc E HS; unfold have at 2 4 in HS; rewrite Epc in HS; cbn in HS; lia.
    + destruct (Nat.ltb (c_n x) (chunk p)).
      * destruct (queue s) as [|m q] eqn:Eq; [discriminate|]. injection H as <-. cbn. upc E HS; unfold have at 2 4 in HS; rewrite Epc in HS; cbn in HS. lia.
      * injection H as <-; cbn; upc E HS; unfold have at 2 4 in HS; rewrite Epc in HS; cbn in HS; lia.
    + destruct m as [|r|]; injection H as <-; cbn; upc E HS; unfold have at 2 4 in HS; rewrite Epc in HS; cbn in HS; repeat split; try lia; discriminate.
    + destruct (isnil (c_thr x)); [|discriminate]. injection H as <-; cbn; upc E HS; unfold have at 2 4 in HS; rewrite Epc in HS; cbn in HS; lia.
    + discriminate.
  - destruct (nth_error (combs s) c) as [x|] eqn:E; [|discriminate]. destruct (c_pc x) eqn:Epc; try discriminate.
    destruct (Nat.ltb (c_n x) (chunk p)); [|discriminate]. injection H as <-. unfold weight, left. cbn.
    upc E HS; unfold have at 2 4 in HS; rewrite Epc in HS; cbn in HS; lia.
  - destruct (nth_error (combs s) c) as [x|] eqn:E; [|discriminate]. destruct (nth_error (c_thr x) i) as [rs|] eqn:Et; [|discriminate].
    unfold weight, left. destruct (combine_results rs); injection H as <-; cbn; upc E HS; unfold have at 2 4 in HS; cbn in HS; lia.
  - destruct (nth_error (writers s) w) as [x|] eqn:E; [|discriminate]. unfold writer_step in H. unfold weight, left.
    destruct x as [| | | |b|[|[k [rows|]] b]|]; try discriminate.
    + destruct (ready s && isnil (outq s)); injection H as <-; cbn; auto.
    + destruct (stop_ s); injection H as <-; cbn; auto.
    + injection H as <-; cbn; auto.
    + destruct (outq s); [discriminate|]. injection H as <-; cbn; auto.
    + destruct (locked s); [discriminate|]. injection H as <-; cbn; auto.
    + injection H as <-; cbn; auto.
    + injection H as <-; cbn; auto.
    + injection H as <-; cbn; auto.
  - destruct (nth_error (writers s) w) as [[| | | |b|b|]|] eqn:E; try discriminate. injection H as <-. unfold weight, left; cbn; auto.
  - destruct (nth_error (writers s) w) as [[| | | |b|b|]|] eqn:E; try discriminate. injection H as <-. unfold weight, left; cbn; auto.
  - destruct (main s).
    + destruct (isnil (todo s) && isnil (running s)); [|discriminate]. injection H as <-. unfold weight, left; cbn; auto.
    + match type of H with (if ?b then _ else _) = _ => destruct b; [|discriminate] end. injection H as <-. unfold weight, left; cbn; auto.
    + match type of H with (if ?b then _ else _) = _ => destruct b; [|discriminate] end. injection H as <-. unfold weight, left; cbn; auto.
    + discriminate.
  - destruct (main s); try discriminate. injection H as <-. unfold weight, left; cbn; auto.
Qed.

(** what the print-thread knows *)
Definition known (n B : nat) (s : @state Job Row) (x : ppc) : Prop :=
  match x with
  | PIdle | PLock => True
  | PQ q => q + totcnt s + left s <= B
  | PT q tot => q + tot + left s <= B /\ tot = totcnt s
  | PM q tot mean => q + tot + left s <= B /\ mean <= tot
  | PRel q tot mean => q + tot + left s <= B /\ mean <= tot
  | PTime q tot mean r => q + tot + left s <= B /\ mean <= tot /\ (forall t, r = Some t -> q + tot <= n -> (0 <= t)%Q)
  | PMsg q tot mean r _ => q + tot + left s <= B /\ mean <= tot /\ (forall t, r = Some t -> q + tot <= n -> (0 <= t)%Q)
  | PShown (Bar bar pr f m r) => pr + left s <= B /\ pr < n /\ m = n /\ (0 <= f <= Z.of_nat pr)%Z /\ update_progress pr n = Ok (Some (bar, pr, n)) /\ (forall t, r = Some t -> (0 <= t)%Q)
  | PShown (Finished m _) => n + left s <= B /\ m = n
  | PDead e => e = ZeroDivisionError
  end.
Lemma known_less n B s s' x : left s' <= left s -> totcnt s' = totcnt s -> known n B s x -> known n B s' x.
Proof. intros L T K. destruct x as [| | | | | | | |[]|]; cbn [known] in *; try rewrite T; auto; repeat split; try tauto; try lia. Qed.
Lemma known_less' n B s s' x : holds x = false -> left s' <= left s -> known n B s x -> known n B s' x.
Proof. intros Hh L K. destruct x as [| | | | | | | |[]|]; cbn [known holds] in *; try discriminate; auto; repeat split; try tauto; try lia. Qed.
Lemma known_run n B es : 1 <= n -> forall s x s' x', prun p n es (s, x) = Some (s', x') -> weight s <= B -> meancnt s <= totcnt s -> known n B s x ->
  weight s' <= B /\ known n B s' x'.
Proof.
  intros Hn. induction es as [|e es IH]; intros s x s' x' R W M K; cbn [prun] in R.
  - injection R as <- <-. auto.
  - destruct e as [e|t]; cbn [pstep fst snd] in R.
    + destruct (counts e s && holds x) eqn:C; [discriminate|]. destruct (step p e s) as [s1|] eqn:E; [|discriminate].
      destruct (step_weight e s s1 E) as (W1 & L1 & T1).
      assert (M1 : meancnt s1 <= totcnt s1).
      { apply (run_le p [e] s s1); [cbn [run]; now rewrite E|auto]. }
      apply (IH s1 x s' x' R); auto; [lia|]. destruct (counts e s).
      * cbn in C. now apply (known_less' n B s).
      * destruct (T1 eq_refl). now apply (known_less n B s).
    + apply (IH s (print_step n t s x) s' x' R W M). clear IH R.
      destruct x as [| |q|q tot|q tot mean|q tot mean|q tot mean r|q tot mean r t'|l|]; cbn [print_step known] in *; auto.
      * unfold weight in W. lia.
      * destruct K as [K ->]. intuition lia.
      * destruct K as [K1 K2]. destruct (Nat.eqb (meancnt s) 0).
        { cbn [known]. repeat split; auto; try lia. intros u Hu. discriminate. }
        destruct (Nat.eqb_spec (mean + q) 0) as [Z0|Z0]; [reflexivity|]. cbn [known]. repeat split; auto; try lia.
        assert (P : q + tot <= n -> (0 <= inject_Z (Z.of_nat t) / inject_Z (1000 * Z.of_nat (mean + q)) * inject_Z (Z.of_nat n - Z.of_nat (tot + q)))%Q);
          [|intros u Hu; injection Hu as <-; exact P].
        intros Hle. apply Qmult_le_0_compat.
        { apply Qle_shift_div_l; [change 0%Q with (inject_Z 0); rewrite <- Zlt_Qlt; lia|]. rewrite Qmult_0_l. change 0%Q with (inject_Z 0). rewrite <- Zle_Qle. lia. }
        { change 0%Q with (inject_Z 0). rewrite <- Zle_Qle. lia. }
      * destruct K as (K1 & K2 & K3). destruct (Nat.lt_ge_cases (tot + q) n) as [L|L].
        { destruct (C169_bar (tot + q) n L) as (bar & E & Lb & _). rewrite E. cbn [known]. split; [lia|]. split; [lia|]. split; [reflexivity|].
          split; [lia|]. split; [rewrite ?E; auto|]. intros u Hu. apply (K3 u Hu). lia. }
        { rewrite (proj2 (C169_final (tot + q) n Hn) L). cbn [known]. split; [lia|reflexivity]. }
Qed.
Lemma left_zero (s : @state Job Row) : (forall j, 1 <= g j) -> left s = 0 -> todo s = [] /\ running s = [].
Proof.
  intros H1 H. unfold left in H. destruct (todo s) as [|j l]; [destruct (running s) as [|j l]|]; auto; cbn in H; pose proof (H1 j); lia.
Qed.
End Print.

Lemma known_start {Job Row} (p : @params Job Row) g jobs : weight g (init p jobs) = sumf g jobs.
Proof. unfold weight, left. cbn. rewrite sumf_repeat0 by reflexivity. lia. Qed.

(** every shown line: at most the maximum, failed ones among them, a time that is not negative; and "finished" only when no task is left *)
Theorem C169_shown : forall (Job Row : Type) (p : @params Job Row) jobs es s l, jobs <> [] -> pexecutes p jobs es s (PShown l) ->
  match l with
  | Bar bar pr failed m remain =>
      m = length jobs /\ pr + length (todo s) + length (running s) <= m /\ pr < m /\ (0 <= failed <= Z.of_nat pr)%Z /\ length bar = 20 /\
      (Z.abs (2 * Z.of_nat m * Z.of_nat (filled bar) - 40 * Z.of_nat pr) <= Z.of_nat m)%Z /\ forall t, remain = Some t -> (0 <= t)%Q
  | Finished m _ => m = length jobs /\ todo s = [] /\ running s = []
  end.
Proof.
  intros Job Row p jobs es s l H X. unfold pexecutes in X.
  assert (n1 : 1 <= length jobs) by (destruct jobs; [congruence|cbn; lia]).
  assert (G : forall j, length (worker_put (what p j)) <= (fun _ => 1) j) by (intros j; destruct (what p j) as [| |m]; cbn; lia).
  assert (S1 : forall jl : list Job, sumf (fun _ => 1) jl = length jl) by (induction jl; cbn; congruence).
  destruct (known_run p (fun _ => 1) G (length jobs) (length jobs) es n1 (init p jobs) PIdle s (PShown l) X) as [_ K].
  { rewrite known_start, S1. lia. } { cbn. lia. } { exact I. }
  destruct l as [bar pr failed m remain|m f]; cbn [known] in K.
  - destruct K as (A & B & -> & F & E & T). unfold left in A. rewrite !S1 in A. destruct (C169_bar pr (length jobs) B) as (bar' & E' & L & N).
    rewrite E in E'. injection E' as <-. repeat split; auto; try lia.
  - destruct K as (A & ->). split; auto. apply (left_zero (fun _ => 1)); auto. unfold left in *. lia.
Qed.
Print Assumptions C169_shown.
(** the thread only ends with a division by zero, ... *)
Theorem C169_thread : forall (Job Row : Type) (p : @params Job Row) jobs es s e, jobs <> [] -> pexecutes p jobs es s (PDead e) -> e = ZeroDivisionError.
Proof.
  intros Job Row p jobs es s e H X. unfold pexecutes in X.
  assert (n1 : 1 <= length jobs) by (destruct jobs; [congruence|cbn; lia]).
  assert (G : forall j, length (worker_put (what p j)) <= (fun _ => 1) j) by (intros j; destruct (what p j) as [| |m]; cbn; lia).
  destruct (known_run p (fun _ => 1) G (length jobs) (sumf (fun _ => 1) jobs) es n1 (init p jobs) PIdle s (PDead e) X) as [_ K].
  { rewrite known_start. lia. } { cbn. lia. } { exact I. }
  exact K.
Qed.
Print Assumptions C169_thread.

Definition one_task : @params nat nat := mkparams 1 1 1 10 10 (fun _ => Returns (MDict [])).
(** ... which happens if the first result is counted between the reads of the thread *)
Theorem C169_race_refuted : exists es s, pexecutes one_task [0; 1] es s (PDead ZeroDivisionError).
Proof.
  exists ([Pipe (SStep 0); Pipe (SStep 0); Pipe (SStep 0); Pipe (CStep 0); Pipe (CStep 0);
           Pipe (WStart 0); Pipe (WFinish 0); Pipe (CStep 0);
           Print 0; Print 0; Print 0; Print 0; Print 0; Pipe (CStep 0); Print 0]).
  eexists. vm_compute. reflexivity.
Qed.
Print Assumptions C169_race_refuted.
(** a task without data is never counted: "finished" is never shown *)
Theorem C169_nodata_refuted : forall (Job Row : Type) (p : @params Job Row) jobs es s m f j, In j jobs -> what p j = NoData ->
  ~ pexecutes p jobs es s (PShown (Finished m f)).
Proof.
  intros Job Row p jobs es s m f j Hj Ej X. unfold pexecutes in X.
  assert (n1 : 1 <= length jobs) by (destruct jobs; [destruct Hj|cbn; lia]).
  assert (G : forall j, length (worker_put (what p j)) <= queued p j).
  { intros j'. unfold queued. destruct (what p j') as [| |m']; cbn; lia. }
  destruct (known_run p (queued p) G (length jobs) (sumf (queued p) jobs) es n1 (init p jobs) PIdle s (PShown (Finished m f)) X) as [_ K].
  { rewrite known_start. lia. } { cbn. lia. } { exact I. }
  cbn [known] in K. destruct K as [A _].
  assert (L : sumf (queued p) jobs < length jobs).
  { clear -Hj Ej. induction jobs as [|k l IH]; [destruct Hj|]. cbn [sumf length].
    assert (Le : forall l, sumf (queued p) l <= length l) by (clear; induction l as [|y l IH]; cbn; [lia|]; unfold queued at 1; destruct (what p y); lia).
    destruct Hj as [->|Hj]; [unfold queued at 1; rewrite Ej; pose proof (Le l); lia|]. specialize (IH Hj). unfold queued at 1. destruct (what p k); lia. }
  lia.
Qed.
Print Assumptions C169_nodata_refuted.
(** the number of failed tasks in the final message can be wrong: results that are still queued are not counted *)
Definition failing : @params nat nat := mkparams 1 1 1 10 10 (fun _ => Raises).
Theorem C169_failed_refuted : exists es s, pexecutes failing [0; 1] es s (PShown (Finished 2 0)) /\ totcnt s = 0 /\ queue s = [MNone; MNone].
Proof.
  exists ([Pipe (SStep 0); Pipe (SStep 0); Pipe (SStep 0); Pipe (WStart 0); Pipe (WFinish 0); Pipe (WStart 0); Pipe (WFinish 0);
           Print 0; Print 0; Print 0; Print 0; Print 0; Print 0; Print 0; Print 0]).
  eexists. split; [vm_compute; reflexivity|]. split; reflexivity.
Qed.
Print Assumptions C169_failed_refuted.
Example C169_example : exists s, pexecutes one_task [0; 1] [Pipe (SStep 0); Pipe (SStep 0); Pipe (SStep 0); Pipe (WStart 0); Pipe (WFinish 0);
    Print 0; Print 0; Print 0; Print 0; Print 0; Print 0; Print 0; Print 0] s (PShown (Bar (repeat true 10 ++ repeat false 10) 1 0 2 None)) /\
  update_progress 39 40 = Ok (Some (repeat true 20, 39, 40)) /\ update_progress 40 40 = Ok None /\ update_progress 0 0 = Err ZeroDivisionError.
Proof. eexists. split; [vm_compute; reflexivity|]. repeat split; vm_compute; reflexivity. Qed.
