(** C224: what plot.intermediate_residuals shows. *)
From Coq Require Import ZArith QArith Qabs Bool Arith List Lia Lqa Qfield.
From Verif Require Import Base Base_Proofs GF_Model GF_Proofs Aln_Model Ibn_Model Ibn_Spec Ibn_Proofs.
Import ListNotations.
Local Open Scope list_scope.

Lemma present_in keys i : In i (present_bins keys) <-> In (Some i) keys.
Proof.
  unfold present_bins. rewrite in_flat_map. split.
  - intros ([j|] & I & H); [destruct H as [<-|[]]; exact I|destruct H].
  - intros I. exists (Some i). split; [exact I|now left].
Qed.
(** a figure, taken apart *)
Lemma figure_inv rs g s pt f : proper g -> intermediate_residuals (Some rs) g (Some s) pt = Ok f ->
  exists keys n sel, grouped_by g keys n /\ step_of s <> 0%Z /\ take_slice rs s = Ok sel /\ take_slice (seq 1 (length rs)) s = Ok (f_x f) /\ sel <> [] /\
  f_z f = map (column_values keys n) sel /\ length (f_y f) = n /\ pt <> POther /\
  (pt = P3D -> f_points f = selected (maskp (all_masked n (f_z f)))) /\
  f_xrange f = (qn (list_min (f_x f)) - half (inject_Z (iterstep s)), qn (list_max (f_x f)) + half (inject_Z (iterstep s))) /\
  match g with
  | GTuple _ edges breaks => present_bins keys <> [] /\ f_y f = map (fun i => half (nth i breaks 0 + nth (S i) breaks 0)) (seq 0 n) /\
      f_yrange f = (nth (list_min (present_bins keys)) breaks 0, nth (S (list_max (present_bins keys))) breaks 0)
  | _ => f_y f = map qn (seq 0 n) /\ f_yrange f = (- (1 # 2), qn n - (1 # 2))
  end.
Proof.
  intros Pr H. unfold intermediate_residuals in H.
  destruct (Z.eq_dec (step_of s) 0) as [Z|Z].
  { exfalso. rewrite !take_slice_err in H by exact Z.
    destruct g as [[vals|] edges breaks|keys n|]; cbn in H; try discriminate. destruct (present_bins (map (cut edges) vals)); discriminate. }
  destruct g as [[vals|] edges breaks|keys n|]; cbn [bind] in H; try discriminate.
  - destruct (present_bins (map (cut edges) vals)) as [|p0 p] eqn:P; [discriminate|]. cbn [bind] in H.
    destruct (take_slice rs s) as [sel|] eqn:T; [|discriminate]. destruct (take_slice (seq 1 (length rs)) s) as [xs|] eqn:X; [|discriminate]. cbn [bind] in H.
    exists (map (cut edges) vals), (length edges - 1)%nat, sel.
    destruct sel as [|r sel]; [destruct pt; discriminate|]. destruct pt; try discriminate; injection H as <-; cbn [f_x f_y f_z f_points f_xrange f_yrange];
    (split; [split; [|reflexivity]; destruct Pr as (I1 & _ & _ & I2); clear - I1 I2; induction vals as [|v vals IH]; cbn; constructor; auto; now apply cut_binned|]);
    rewrite map_length, seq_length, P; repeat split; auto; try discriminate.
  - destruct (take_slice rs s) as [sel|] eqn:T; [|discriminate]. destruct (take_slice (seq 1 (length rs)) s) as [xs|] eqn:X; [|discriminate]. cbn [bind] in H.
    exists (map Some keys), n, sel.
    destruct sel as [|r sel]; [discriminate|]. destruct pt; try discriminate; injection H as <-; cbn [f_x f_y f_z f_points f_xrange f_yrange];
    rewrite map_length, seq_length; repeat split; auto; try discriminate.
Qed.
Lemma xs_nth (rs : list (list Q)) s xs : step_of s <> 0%Z -> take_slice (seq 1 (length rs)) s = Ok xs ->
  length xs = count_of (Z.of_nat (length rs)) s /\
  forall k x, nth_error xs k = Some x <-> kth (Z.of_nat (length rs)) s k (Z.of_nat x - 1).
Proof.
  intros Z T. rewrite (take_slice_ok 0%nat) in T by exact Z. injection T as <-. rewrite seq_length, map_length, seq_length. split; [reflexivity|]. intros k x.
  set (c := count_of _ s). set (F := fun k => nth _ _ _). split.
  - intros N. assert (K : (k < c)%nat). { assert (nth_error (map F (seq 0 c)) k <> None) by congruence. apply nth_error_Some in H. now rewrite map_length, seq_length in H. }
    destruct (position_lt (length rs) s k Z K) as (p & P & E & L).
    rewrite (nth_error_nth' _ (F 0%nat)) in N by now rewrite map_length, seq_length. rewrite map_nth, seq_nth in N by exact K. injection N as <-.
    cbn [Nat.add]. unfold F. rewrite E, seq_nth by exact L. pose proof (kth_range _ _ _ _ (Zle_0_nat (length rs)) Z P).
    replace (Z.of_nat (1 + Z.to_nat p) - 1)%Z with p by lia. exact P.
  - intros P. assert (K : (k < c)%nat) by (apply count_kth; [lia|exact Z|eauto]).
    rewrite (nth_error_nth' _ (F 0%nat)) by now rewrite map_length, seq_length. rewrite map_nth, seq_nth by exact K. cbn [Nat.add].
    pose proof (kth_range _ _ _ _ (Zle_0_nat (length rs)) Z P) as R. destruct P as [E _]. unfold F. rewrite <- E. rewrite seq_nth by lia. f_equal. lia.
Qed.

(** ** the iterations: those of the slice, in its order *)
Theorem C224_iterations : forall rs g s pt f, proper g -> intermediate_residuals (Some rs) g (Some s) pt = Ok f ->
  forall k x, nth_error (f_x f) k = Some x <-> kth (Z.of_nat (length rs)) s k (Z.of_nat x - 1).
Proof.
  intros rs g s pt f Pr H. destruct (figure_inv rs g s pt f Pr H) as (keys & n & sel & _ & Z & _ & X & _). apply (xs_nth rs s _ Z X).
Qed.
Print Assumptions C224_iterations.

(** ** the values: each row shows the residuals of its iteration, each column those of its bin, group, date or period *)
Theorem C224_values : forall rs g s pt f, proper g -> intermediate_residuals (Some rs) g (Some s) pt = Ok f ->
  exists keys n, grouped_by g keys n /\ length (f_y f) = n /\ length (f_z f) = length (f_x f) /\
  forall k x row, nth_error (f_x f) k = Some x -> nth_error (f_z f) k = Some row ->
  exists errs, (1 <= x)%nat /\ nth_error rs (x - 1) = Some errs /\ shows keys n errs row.
Proof.
  intros rs g s pt f Pr H. destruct (figure_inv rs g s pt f Pr H) as (keys & n & sel & Gb & Z & T & X & _ & Ez & Ly & _).
  exists keys, n. split; [exact Gb|]. split; [exact Ly|]. destruct (xs_nth rs s _ Z X) as [Lx Nx].
  rewrite (take_slice_ok []) in T by exact Z. injection T as <-. split; [rewrite Ez, !map_length, seq_length; auto|].
  intros k x row Hx Hr. apply Nx in Hx. pose proof (kth_range _ _ _ _ (Zle_0_nat (length rs)) Z Hx) as R.
  assert (K : (k < count_of (Z.of_nat (length rs)) s)%nat) by (apply count_kth; [lia|exact Z|eauto]).
  rewrite Ez, map_map in Hr. set (F := fun x => column_values keys n _) in Hr.
  rewrite (nth_error_nth' _ (F 0%nat)) in Hr by now rewrite map_length, seq_length. rewrite map_nth, seq_nth in Hr by exact K. injection Hr as <-.
  cbn [Nat.add]. unfold F. destruct Hx as [E _]. rewrite <- E. exists (nth (Z.to_nat (Z.of_nat x - 1)) rs []). split; [lia|].
  replace (Z.to_nat (Z.of_nat x - 1)) with (x - 1)%nat by lia. split; [apply nth_error_nth'; lia|apply column_values_shows].
Qed.
Print Assumptions C224_values.

(** every observation is counted in the bin of its value and in no other *)
Theorem C224_bins : forall edges v i j, increasing edges -> in_bin edges i v -> in_bin edges j v -> i = j.
Proof. intros. eapply bin_unique; eauto. Qed.
Print Assumptions C224_bins.

(** ** columns without neighbours are drawn as points *)
Theorem C224_points : forall rs g s f, proper g -> intermediate_residuals (Some rs) g (Some s) P3D = Ok f ->
  forall i, In i (f_points f) <-> lone (f_z f) (length (f_y f)) i.
Proof.
  intros rs g s f Pr H i. destruct (figure_inv rs g s P3D f Pr H) as (keys & n & sel & _ & _ & _ & _ & _ & _ & Ly & _ & Pt & _).
  rewrite Pt, Ly by reflexivity. apply points_lone.
Qed.
Print Assumptions C224_points.

(** ** the image: iterations are at their position exactly if the step is positive or there is only one of them *)
Lemma qn_pos n : (0 < n)%nat -> ~ qn n == 0.
Proof. intros H Z. assert (Y : (Z.of_nat n = 0)%Z) by (apply inject_Z_injective; exact Z). lia. Qed.
Theorem C224_image_iterations : forall rs g s pt f, proper g -> intermediate_residuals (Some rs) g (Some s) pt = Ok f ->
  ((forall k x, nth_error (f_x f) k = Some x -> pixel (f_xrange f) (length (f_x f)) k == qn x) <-> (0 < step_of s)%Z \/ length (f_x f) = 1%nat).
Proof.
  intros rs g s pt f Pr H. destruct (figure_inv rs g s pt f Pr H) as (keys & n & sel & _ & Z & T & X & Ne & _ & _ & _ & _ & Er & _).
  destruct (xs_nth rs s _ Z X) as [Lx Nx]. set (xs := f_x f) in *. set (c := length xs) in *.
  assert (C : (0 < c)%nat). { rewrite (take_slice_ok []) in T by exact Z. injection T as <-. rewrite <- Lx in Ne. destruct c; [elim Ne; reflexivity|lia]. }
  assert (It : iterstep s = step_of s). { unfold iterstep, step_of in *. destruct (s_step s) as [z|]; [|reflexivity]. destruct (Z.eqb_spec z 0); [congruence|reflexivity]. }
  rewrite It in Er. set (st := step_of s) in *. set (a := start_of (Z.of_nat (length rs)) st (s_start s)).
  assert (Ex : forall k x, nth_error xs k = Some x -> Z.of_nat x = (a + 1 + Z.of_nat k * st)%Z).
  { intros k x N. apply Nx in N as [E _]. fold st in E. fold a in E. lia. }
  assert (Ek : forall k, (k < c)%nat -> exists x, nth_error xs k = Some x).
  { intros k K. destruct (nth_error xs k) eqn:E; [eauto|]. apply nth_error_None in E. unfold c in K. lia. }
  destruct (Ek 0%nat C) as [x0 N0]. destruct (Ek (c - 1)%nat ltac:(lia)) as [xl Nl]. pose proof (Ex _ _ N0) as E0. pose proof (Ex _ _ Nl) as El.
  assert (Nn : xs <> []) by (intros Q; unfold c in C; rewrite Q in C; cbn in C; lia).
  pose proof (list_min_spec xs Nn) as [Mi Ml]. pose proof (list_max_spec xs Nn) as [Xi Xl].
  apply In_nth_error in Mi as [km Nm]. apply In_nth_error in Xi as [kx Nk]. pose proof (Ex _ _ Nm) as Em. pose proof (Ex _ _ Nk) as Eqx.
  assert (Km : (km < c)%nat) by (apply nth_error_Some; congruence). assert (Kx : (kx < c)%nat) by (apply nth_error_Some; congruence).
  pose proof (Ml x0 (nth_error_In _ _ N0)) as M0. pose proof (Ml xl (nth_error_In _ _ Nl)) as M1.
  pose proof (Xl x0 (nth_error_In _ _ N0)) as X0. pose proof (Xl xl (nth_error_In _ _ Nl)) as X1.
  rewrite Er. unfold pixel, half. cbn [fst snd].
  assert (Hc : ~ qn c == 0) by (apply qn_pos; lia).
  assert (Qk : forall k x, nth_error xs k = Some x -> qn x == qn x0 + qn k * inject_Z st).
  { intros k x N. apply Ex in N. unfold qn. rewrite <- inject_Z_mult, <- inject_Z_plus. rewrite N, E0. replace (a + 1 + Z.of_nat 0 * st + Z.of_nat k * st)%Z with (a + 1 + Z.of_nat k * st)%Z by lia. reflexivity. }
  assert (Qc : qn (c - 1) == qn c - 1). { unfold qn. rewrite Nat2Z.inj_sub by lia. unfold Z.sub. rewrite inject_Z_plus. reflexivity. }
  destruct (Z.ltb_spec 0 st) as [Sp|Sn].
  - split; [auto|]. intros _ k x N.
    assert (Mq : list_min xs = x0) by nia. assert (Xq : list_max xs = xl) by nia. rewrite Mq, Xq, (Qk _ _ Nl), (Qk _ _ N), Qc. field. exact Hc.
  - assert (Mq : list_min xs = xl) by nia. assert (Xq : list_max xs = x0) by nia. rewrite Mq, Xq. split.
    + intros A. right. specialize (A 0%nat x0 N0). rewrite (Qk _ _ Nl), Qc in A. unfold qn at 3 in A. cbn [Z.of_nat] in A.
      assert (B : inject_Z st * ((qn c - 1) * (qn c - 1)) == 0).
      { assert (B' : qn x0 + (qn c - 1) * inject_Z st - inject_Z st / 2 + (inject_Z 0 + (1 # 2)) * (qn x0 + inject_Z st / 2 - (qn x0 + (qn c - 1) * inject_Z st - inject_Z st / 2)) / qn c - qn x0
          == inject_Z st * ((qn c - 1) * (qn c - 1)) / qn c) by (change (inject_Z 0) with 0; field; exact Hc).
        rewrite A in B'. assert (B2 : inject_Z st * ((qn c - 1) * (qn c - 1)) / qn c == 0) by (rewrite <- B'; ring).
        transitivity (inject_Z st * ((qn c - 1) * (qn c - 1)) / qn c * qn c); [field; exact Hc|]. rewrite B2. ring. }
      apply Qmult_integral in B as [B|B]; [exfalso; apply Z; apply inject_Z_injective; exact B|].
      assert (D : qn c - 1 == 0) by (apply Qmult_integral in B; tauto). assert (D' : qn c == inject_Z 1) by (change (inject_Z 1) with 1; lra).
      unfold qn in D'. assert (Y : Z.of_nat c = 1%Z) by (apply inject_Z_injective; exact D'). lia.
    + intros [Q|Q]; [lia|]. intros k x N. assert (Kk : (k < c)%nat) by (apply nth_error_Some; congruence). assert (k = 0%nat) by lia. subst k.
      rewrite N0 in N. injection N as <-. rewrite (Qk _ _ Nl), Qc, Q. change (qn 1) with 1. change (qn 0) with 0. field.
Qed.
Print Assumptions C224_image_iterations.

(** groups, dates and periods are at their position *)
Theorem C224_image_groups : forall rs keys n s pt f, intermediate_residuals (Some rs) (GStr keys n) (Some s) pt = Ok f ->
  forall i, (i < n)%nat -> nth i (f_y f) 0 == qn i /\ pixel (f_yrange f) n i == qn i.
Proof.
  intros rs keys n s pt f H i Hi. destruct (figure_inv rs (GStr keys n) s pt f I H) as (k' & n' & sel & [_ ->] & _ & _ & _ & _ & _ & _ & _ & _ & _ & Ey & Er).
  rewrite Ey, Er. split.
  - rewrite nth_indep with (d' := qn 0) by now rewrite map_length, seq_length. rewrite map_nth, seq_nth by exact Hi. reflexivity.
  - unfold pixel. cbn [fst snd]. field. apply qn_pos. lia.
Qed.
Print Assumptions C224_image_groups.

(** bins are at their position exactly if they all have the same width and the first and the last one are not empty *)
Theorem C224_image_bins : forall rs vals edges breaks s pt f, proper (GTuple (Some vals) edges breaks) ->
  intermediate_residuals (Some rs) (GTuple (Some vals) edges breaks) (Some s) pt = Ok f ->
  let n := (length edges - 1)%nat in
  ((forall i, (i < n)%nat -> pixel (f_yrange f) n i == nth i (f_y f) 0) <->
   even_bins breaks n /\ occupied vals edges 0 /\ occupied vals edges (n - 1)).
Proof.
  intros rs vals edges breaks s pt f Pr H n.
  destruct (figure_inv rs _ s pt f Pr H) as (keys & n' & sel & [Gb Hn'] & _ & _ & _ & _ & _ & _ & _ & _ & _ & Np & Ey & Er).
  fold n in Hn'. subst n'. destruct Pr as (Ie & Ib & Lb & L1). assert (N1 : (1 <= n)%nat) by (unfold n; lia).
  assert (Oc : forall i, occupied vals edges i <-> In i (present_bins keys)).
  { intros i. rewrite present_in. unfold occupied. clear - Gb Ie. induction Gb as [|v k vals keys B Gb IH].
    - split; [intros (x & [] & _)|intros []].
    - split.
      + intros (x & [->|I] & Bi); [|right; apply IH; eauto]. left. destruct k as [j|]; cbn in B.
        * destruct B as (y & E & Bj). injection E as <-. f_equal. eapply bin_unique; eauto.
        * exfalso. exact (B x i eq_refl Bi).
      + intros [->|I]; [|apply IH in I as (x & I & Bi); exists x; split; [now right|exact Bi]]. destruct B as (y & -> & Bj). exists y. split; [now left|exact Bj]. }
  rewrite !Oc. pose proof (list_min_spec _ Np) as [Mi Ml]. pose proof (list_max_spec _ Np) as [Xi Xl].
  set (lo := list_min (present_bins keys)) in *. set (hi := list_max (present_bins keys)) in *.
  assert (Lt : forall i, In i (present_bins keys) -> (i < n)%nat). { intros i I. apply Oc in I as (x & _ & [L _]). unfold n. lia. }
  assert (Hlo : (lo < n)%nat) by (apply Lt; exact Mi). assert (Hhi : (hi < n)%nat) by (apply Lt; exact Xi).
  assert (Lh : (lo <= hi)%nat) by (apply Ml; exact Xi).
  set (b := fun i => nth i breaks 0).
  assert (Inc : forall i j, (i < j <= n)%nat -> b i < b j) by (intros i j L; apply increasing_lt; [exact Ib|unfold n in L; lia]).
  assert (Yn : forall i, (i < n)%nat -> nth i (f_y f) 0 = half (b i + b (S i))).
  { intros i L. rewrite Ey. set (F := fun i => half _). rewrite nth_indep with (d' := F 0%nat) by now rewrite map_length, seq_length.
    rewrite map_nth, seq_nth by exact L. reflexivity. }
  assert (Hq : ~ qn n == 0) by (apply qn_pos; lia).
  rewrite Er. unfold pixel. cbn [fst snd]. fold (b lo). fold (b (S hi)).
  set (h := (b (S hi) - b lo) / qn n).
  assert (Hh : 0 < h). { unfold h. assert (b lo < b (S hi)) by (apply Inc; lia). assert (0 < qn n) by (unfold qn; change 0 with (inject_Z 0); rewrite <- Zlt_Qlt; lia).
    apply Qlt_shift_div_l; [auto|]. lra. }
  assert (Px : forall i, b lo + (qn i + (1 # 2)) * (b (S hi) - b lo) / qn n == b lo + (qn i + (1 # 2)) * h) by (intros i; unfold h; field; exact Hq).
  assert (QS : forall i, qn (S i) == qn i + 1). { intros i. unfold qn. rewrite Nat2Z.inj_succ. unfold Z.succ. rewrite inject_Z_plus. reflexivity. }
  split.
  - intros A. assert (A' : forall i, (i < n)%nat -> b lo + (qn i + (1 # 2)) * h == (b i + b (S i)) / 2).
    { intros i L. rewrite <- Px, (A i L), (Yn i L). reflexivity. } clear A.
    assert (L0 : lo = 0%nat).
    { destruct (Nat.eq_dec lo 0) as [E|E]; [exact E|exfalso]. specialize (A' 0%nat ltac:(lia)). change (qn 0) with 0 in A'.
      assert (b 0%nat < b 1%nat) by (apply Inc; lia). assert (b 1%nat <= b lo). { destruct (Nat.eq_dec 1 lo) as [<-|]; [apply Qle_refl|apply Qlt_le_weak, Inc; lia]. }
      assert (A2 : b lo + (0 + (1 # 2)) * h == (1 # 2) * b 0%nat + (1 # 2) * b 1%nat) by (rewrite A'; field). lra. }
    assert (Bi : forall i, (i <= n)%nat -> b i == b 0%nat + qn i * h).
    { induction i as [|i IH]; intros L; [change (qn 0) with 0; ring|]. specialize (A' i ltac:(lia)). specialize (IH ltac:(lia)). rewrite L0, IH in A'. rewrite QS.
      assert (A2 : 2 * (b 0%nat + (qn i + (1 # 2)) * h) == b 0%nat + qn i * h + b (S i)) by (rewrite A'; field). lra. }
    assert (Hn : S hi = n).
    { destruct (Nat.eq_dec (S hi) n) as [E|E]; [exact E|exfalso]. assert (b (S hi) < b n) by (apply Inc; lia).
      assert (F : qn n * h == b (S hi) - b 0%nat) by (unfold h; rewrite L0; field; exact Hq). pose proof (Bi n ltac:(lia)) as G. lra. }
    split; [|split].
    + intros i L. fold (b i). fold (b (S i)). fold (b 1%nat). fold (b 0%nat). rewrite (Bi (S i)), (Bi i), (Bi 1%nat) by lia. rewrite QS. change (qn 1) with 1. ring.
    + rewrite <- L0. exact Mi.
    + replace (n - 1)%nat with hi by lia. exact Xi.
  - intros (Ev & O0 & O1) i L. assert (L0 : lo = 0%nat) by (specialize (Ml _ O0); lia). assert (Hn : S hi = n) by (specialize (Xl _ O1); lia).
    rewrite Px, (Yn i L). unfold half.
    set (d := b 1%nat - b 0%nat). assert (Bi : forall i, (i <= n)%nat -> b i == b 0%nat + qn i * d).
    { induction i0 as [|i0 IH]; intros L2; [change (qn 0) with 0; ring|]. specialize (Ev i0 ltac:(lia)). fold (b i0) in Ev. fold (b (S i0)) in Ev. fold (b 1%nat) in Ev. fold (b 0%nat) in Ev. fold d in Ev.
      rewrite QS. specialize (IH ltac:(lia)). lra. }
    assert (Hd : h == d). { unfold h. rewrite L0, Hn, (Bi n) by lia. field. exact Hq. }
    rewrite Hd, L0, (Bi i), (Bi (S i)) by lia. rewrite QS. field.
Qed.
Print Assumptions C224_image_bins.

(** with an empty outer bin the image is stretched: a value is drawn where another bin is *)
Theorem C224_image_bins_refuted : exists rs vals edges f, proper (GTuple (Some vals) edges edges) /\ even_bins edges (length edges - 1) /\
  intermediate_residuals (Some rs) (GTuple (Some vals) edges edges) (Some (mkslice None None None)) P2D = Ok f /\
  f_z f = [[None; Some 5; None]] /\ nth 1 (f_y f) 0 == 3 # 2 /\ pixel (f_yrange f) 3 2 < 2 /\ pixel (f_yrange f) 3 0 > 1.
Proof.
  exists [[-(5)]], [Some (3 # 2)], [0; 1; 2; 3]. eexists.
  split; [|split; [|split; [reflexivity|]]].
  - assert (I : increasing [0; 1; 2; 3]) by (intros i L; destruct i as [|[|[|i]]]; cbn in *; try reflexivity; lia). cbn [proper]. repeat split; auto. cbn; lia.
  - intros i L. destruct i as [|[|[|i]]]; cbn in *; try reflexivity; lia.
  - repeat split.
Qed.
Print Assumptions C224_image_bins_refuted.

(** ** there is a figure exactly if ... *)
Theorem C224_outcome : forall store g sl pt, proper g ->
  ((exists f, intermediate_residuals store g sl pt = Ok f) <->
   exists rs s, store = Some rs /\ sl = Some s /\ step_of s <> 0%Z /\ (exists p, kth (Z.of_nat (length rs)) s 0 p) /\ pt <> POther /\
     match g with GStr _ _ => True | GTuple (Some vals) edges _ => exists i, occupied vals edges i | _ => False end).
Proof.
  intros store g sl pt Pr. split.
  - intros [f H]. destruct store as [rs|]; [|discriminate].
    destruct sl as [s|]; [|exfalso; unfold intermediate_residuals in H; destruct g as [[vals|] edges breaks|keys n|]; cbn in H; try discriminate; destruct (present_bins _); discriminate].
    exists rs, s. split; [reflexivity|]. split; [reflexivity|].
    destruct (figure_inv rs g s pt f Pr H) as (keys & n & sel & Gb & Z & T & _ & Ne & _ & _ & Po & _ & _ & M). split; [exact Z|]. split.
    + apply count_kth; [lia|exact Z|]. rewrite (take_slice_ok []) in T by exact Z. injection T as <-. destruct (count_of _ s); [elim Ne; reflexivity|lia].
    + split; [exact Po|]. destruct g as [[vals|] edges breaks|k m|]; [|exact Gb|exact I|exact Gb].
      destruct M as (Np & _). destruct (present_bins keys) as [|i p] eqn:E; [congruence|]. exists i.
      assert (J : In (Some i) keys) by (apply present_in; rewrite E; now left). destruct Gb as [Gb _]. clear - Gb J.
      induction Gb as [|v k vals keys B Gb IH]; [destruct J|]. destruct J as [->|J].
      * destruct B as (y & -> & Bj). exists y. split; [now left|exact Bj].
      * apply IH in J as (x & I & Bi). exists x. split; [now right|exact Bi].
  - intros (rs & s & -> & -> & Z & K & Po & M). apply count_kth in K; [|lia|exact Z].
    unfold intermediate_residuals. rewrite (take_slice_ok []) by exact Z. rewrite (take_slice_ok 0%nat (seq 1 (length rs))) by exact Z.
    destruct (count_of (Z.of_nat (length rs)) s) as [|c] eqn:Ec; [lia|].
    destruct g as [[vals|] edges breaks|k m|]; try contradiction.
    + destruct M as (i & x & I & Bi). destruct (present_bins (map (cut edges) vals)) as [|i0 p] eqn:E.
      * exfalso. destruct Pr as (Ie & _ & _ & L1). pose proof (cut_binned edges (Some x) Ie L1) as B. destruct (cut edges (Some x)) as [j|] eqn:Cx.
        -- assert (J : In j (present_bins (map (cut edges) vals))) by (apply present_in, in_map_iff; eauto). rewrite E in J. exact J.
        -- exact (B x i eq_refl Bi).
      * cbn [bind seq map]. destruct pt; try congruence; eauto.
    + cbn [bind seq map]. destruct pt; try congruence; eauto.
Qed.
Print Assumptions C224_outcome.
(** with the default slice(2, None) there is none after a fit with at most two evaluations *)
Theorem C224_few_refuted : forall rs g pt f, proper g -> (length rs <= 2)%nat -> intermediate_residuals (Some rs) g (Some default_slice) pt <> Ok f.
Proof.
  intros rs g pt f Pr L H. destruct (proj1 (C224_outcome (Some rs) g (Some default_slice) pt Pr)) as (rs' & s & E & E' & _ & (p & P) & _); [eauto|].
  injection E as <-. injection E' as <-. destruct P as [P Q]. unfold default_slice, step_of in *. cbn -[clamp from_end Z.of_nat] in P, Q. unfold clamp, from_end in P. cbn in P. lia.
Qed.
Print Assumptions C224_few_refuted.

Example C224_example : let g := GTuple (Some [Some (1 # 2); None; Some (5 # 2); Some 0]) [0; 1; 2; 3] [0; 1; 2; 3] in
  (exists f, intermediate_residuals (Some [[1; 9; 9; 9]; [2; 9; 9; 9]; [1; 7; -(4); -(5)]; [1; 7; 4; 2]]) g (Some default_slice) P3D = Ok f /\ f_x f = [3; 4]%nat /\
    map (map (option_map Qred)) (f_z f) = [[Some 2; None; Some 4]; [Some (3 # 2); None; Some 4]] /\ f_points f = [0; 2]%nat) /\
  take_slice [10; 11; 12; 13; 14]%nat (mkslice (Some (-2)%Z) None (Some (-2)%Z)) = Ok [13; 11]%nat /\
  intermediate_residuals (Some [[1]; [2]]) (GStr [0%nat] 1) (Some default_slice) P3D = Err IndexError.
Proof. cbv zeta. split; [eexists; split; [reflexivity|repeat split]|split; reflexivity]. Qed.
