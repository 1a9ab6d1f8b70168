(** C165: the figure of printsig0analysis shows the measurements selected by its slider. *)
From Coq Require Import ZArith Bool List Lia.
From Verif Require Import Base Sld_Model Sld_Spec.
Import ListNotations.
Local Open Scope Z_scope.

Lemma pyidx_ok n d : (d < n)%nat -> pyidx n (Z.of_nat d) = Ok d.
Proof.
  intros H. unfold pyidx. destruct (Z.leb_spec 0 (Z.of_nat d)); [|lia]. destruct (Z.ltb_spec (Z.of_nat d) (Z.of_nat n)); [|lia].
  cbn. now rewrite Nat2Z.id.
Qed.
Lemma pyidx_big n z : Z.of_nat n <= z -> pyidx n z = Err IndexError.
Proof.
  intros H. unfold pyidx. destruct (Z.ltb_spec z (Z.of_nat n)); [lia|]. rewrite andb_false_r. destruct (Z.ltb_spec z 0); [lia|reflexivity].
Qed.

(** blocks of lines *)
Definition shift (a : line) (s : upd) : upd := (a :: fst s, snd s).
Lemma put_shift i d y a s : put (S i) d y (shift a s) = shift a (put i d y s).
Proof. destruct s as [l [e|]]; reflexivity. Qed.
Lemma day_shift pc iq d a s i : animate_day pc iq d (shift a s, S i) = (shift a (fst (animate_day pc iq d (s, i))), S (snd (animate_day pc iq d (s, i)))).
Proof. destruct pc, iq; cbn [animate_day fst snd]; rewrite !put_shift; reflexivity. Qed.
Lemma frac_shift iq d a s i : animate_frac iq d (shift a s, S i) = (shift a (fst (animate_frac iq d (s, i))), S (snd (animate_frac iq d (s, i)))).
Proof. destruct iq; cbn [animate_frac fst snd]; rewrite !put_shift; reflexivity. Qed.
Lemma full_shift pc iq d a s i : animate_full pc iq d (shift a s, S i) = (shift a (fst (animate_full pc iq d (s, i))), S (snd (animate_full pc iq d (s, i)))).
Proof. destruct pc, iq; cbn [animate_full fst snd]; rewrite !put_shift; reflexivity. Qed.
Lemma fracfull_shift iq d a s i : animate_fracfull iq d (shift a s, S i) = (shift a (fst (animate_fracfull iq d (s, i))), S (snd (animate_fracfull iq d (s, i)))).
Proof. destruct iq; cbn [animate_fracfull fst snd]; rewrite !put_shift; reflexivity. Qed.

Section Block.
Variables (body : nat -> upd * nat -> upd * nat) (blk : nat -> list line).
Hypothesis SH : forall d a s i, body d (shift a s, S i) = (shift a (fst (body d (s, i))), S (snd (body d (s, i)))).
Hypothesis BASE : forall d d0 post, body d ((blk d0 ++ post, None), O) = ((blk d ++ post, None), length (blk d)).
Lemma block d d0 post pre : body d ((pre ++ blk d0 ++ post, None), length pre) = ((pre ++ blk d ++ post, None), (length pre + length (blk d))%nat).
Proof.
  induction pre as [|a pre IH]; [apply BASE|]. cbn [app length].
  change (a :: pre ++ blk d0 ++ post, @None pyerr) with (shift a (pre ++ blk d0 ++ post, None)). rewrite SH, IH. reflexivity.
Qed.
Lemma loop_block n zs days olds : List.length olds = List.length days -> Forall2 (fun z d => z < Z.of_nat n /\ pyidx n z = Ok d) zs days ->
  loop n body zs (flat_map blk olds) = (flat_map blk days, None).
Proof.
  intros L F. unfold loop.
  assert (G : forall pre,
    fold_left (fun si day => if Z.of_nat n <=? day then si else match snd (fst si) with Some _ => si | None => match pyidx n day with Ok d => body d si | Err e => ((fst (fst si), Some e), snd si) end end)
      zs ((pre ++ flat_map blk olds, None), List.length pre) = ((pre ++ flat_map blk days, None), (List.length pre + List.length (flat_map blk days))%nat)).
  2: { specialize (G []). cbn [app List.length] in G. rewrite G. reflexivity. }
  revert olds L. induction F as [|z d zs days [Z1 Z2] F IH]; intros [|d0 olds] L pre; try discriminate.
  - cbn. now rewrite Nat.add_0_r.
  - cbn [fold_left flat_map].
    destruct (Z.leb_spec (Z.of_nat n) z); [lia|]. cbn [fst snd]. rewrite Z2. rewrite block.
    assert (E : (List.length pre + List.length (blk d))%nat = List.length (pre ++ blk d)) by now rewrite app_length.
    rewrite E. replace (pre ++ blk d ++ flat_map blk olds) with ((pre ++ blk d) ++ flat_map blk olds) by now rewrite app_assoc.
    rewrite IH by (cbn in L; lia). rewrite <- app_assoc. rewrite !app_length, Nat.add_assoc. reflexivity.
Qed.
End Block.

Lemma day_base pc iq d d0 post : animate_day pc iq d ((plot_day pc iq d0 ++ post, None), O) = ((plot_day pc iq d ++ post, None), length (plot_day pc iq d)).
Proof. destruct pc, iq; reflexivity. Qed.
Lemma frac_base iq d d0 post : animate_frac iq d ((frac_day iq d0 ++ post, None), O) = ((frac_day iq d ++ post, None), length (frac_day iq d)).
Proof. destruct iq; reflexivity. Qed.
Lemma full_base pc iq d d0 post : animate_full pc iq d ((full_day pc iq d0 ++ post, None), O) = ((full_day pc iq d ++ post, None), length (full_day pc iq d)).
Proof. destruct pc, iq; reflexivity. Qed.
Lemma fracfull_base iq d d0 post : animate_fracfull iq d ((fracfull_day iq d0 ++ post, None), O) = ((fracfull_day iq d ++ post, None), length (fracfull_day iq d)).
Proof. destruct iq; reflexivity. Qed.

Lemma drawn_eq pc iq full days : drawn pc iq full days =
  mkfig (flat_map (plot_day pc iq) days) (flat_map (frac_day iq) days) (if full then flat_map (full_day pc iq) days else []) (if full then flat_map (fracfull_day iq) days else []).
Proof.
  unfold drawn. f_equal; [| |destruct full; [|reflexivity]|destruct full; [|reflexivity]]; apply flat_map_ext; intros d; destruct pc, iq; reflexivity.
Qed.

(** the measurement shown for a position of the slider *)
Definition resolve (n : nat) (z : Z) : nat := if z <? 0 then Z.to_nat (z + Z.of_nat n) else Z.to_nat z.
Definition shows (w : widget) (days : list nat) : Prop := w_fig w = drawn (w_pc w) (w_iq w) (w_fullt w) days.
(** everything but slider, label and figure *)
Definition same_args (w w' : widget) : Prop :=
  w_n w = w_n w' /\ w_pc w = w_pc w' /\ w_iq w = w_iq w' /\ w_fullt w = w_fullt w' /\ w_range w = w_range w'
  /\ w_min w = w_min w' /\ w_max w = w_max w' /\ w_val w = w_val w'.
Lemma pyidx_resolve n z : -1 <= z < Z.of_nat n -> (1 <= n)%nat -> pyidx n z = Ok (resolve n z).
Proof.
  intros H N. unfold pyidx, resolve. destruct (Z.ltb_spec z 0).
  - destruct (Z.leb_spec 0 z); [lia|]. cbn. destruct (Z.leb_spec 0 (z + Z.of_nat n)); [reflexivity|lia].
  - destruct (Z.leb_spec 0 z); [|lia]. destruct (Z.ltb_spec z (Z.of_nat n)); [reflexivity|lia].
Qed.
Lemma resolve_nat n v : resolve n (Z.of_nat v) = v.
Proof. unfold resolve. destruct (Z.ltb_spec (Z.of_nat v) 0); lia. Qed.

Lemma animate_ok w v olds : shows w olds -> List.length olds = w_range w -> (1 <= w_range w)%nat -> (1 <= w_n w)%nat ->
  -1 <= v -> v + Z.of_nat (w_range w) <= Z.of_nat (w_n w) ->
  snd (animate v w) = None /\ shows (fst (animate v w)) (map (fun k => resolve (w_n w) (v + Z.of_nat k)) (seq 0 (w_range w))) /\ same_args (fst (animate v w)) w
  /\ w_label (fst (animate v w)) = (if Nat.eqb (w_range w) 1 then One (resolve (w_n w) v) else Range (resolve (w_n w) v) (resolve (w_n w) (v + Z.of_nat (w_range w) - 1))).
Proof.
  intros S L R1 N R0 R2. unfold shows in *. rewrite drawn_eq in S. destruct w as [n pc iq full r mi ma va lab fig]. cbn in S, L, R1, N, R2 |- *. subst fig.
  assert (T : label_text n r v = Ok (Some (if Nat.eqb r 1 then One (resolve n v) else Range (resolve n v) (resolve n (v + Z.of_nat r - 1))))).
  { unfold label_text. destruct r as [|[|r]]; [lia| |].
    - now rewrite (pyidx_resolve n v) by lia.
    - rewrite (pyidx_resolve n v) by lia. cbn [bind]. rewrite pyidx_resolve by lia. reflexivity. }
  unfold animate. cbn [w_n w_range w_pc w_iq w_fullt w_label w_fig w_min w_max w_val g_lines g_frac g_full g_fracfull]. rewrite T.
  set (days := map (fun k => resolve n (v + Z.of_nat k)) (seq 0 r)). set (zs := map (fun k => v + Z.of_nat k) (seq 0 r)).
  assert (F : Forall2 (fun z d => z < Z.of_nat n /\ pyidx n z = Ok d) zs days).
  { unfold zs, days. assert (X : forall k, In k (seq 0 r) -> (k < r)%nat) by (intros k H; apply in_seq in H; lia). revert X.
    generalize (seq 0 r). intros l X. induction l as [|k l IH]; [constructor|]. cbn. constructor.
    - assert (K := X k (or_introl eq_refl)). split; [lia|]. apply pyidx_resolve; lia.
    - apply IH. intros k' H. apply X. now right. }
  assert (Q : List.length olds = List.length days) by (unfold days; rewrite map_length, seq_length; exact L).
  rewrite (loop_block (animate_day pc iq) (plot_day pc iq) (day_shift pc iq) (day_base pc iq) n zs days olds Q F).
  rewrite (loop_block (animate_frac iq) (frac_day iq) (frac_shift iq) (frac_base iq) n zs days olds Q F).
  destruct full.
  - rewrite (loop_block (animate_full pc iq) (full_day pc iq) (full_shift pc iq) (full_base pc iq) n zs days olds Q F).
    rewrite (loop_block (animate_fracfull iq) (fracfull_day iq) (fracfull_shift iq) (fracfull_base iq) n zs days olds Q F).
    cbn. rewrite drawn_eq. unfold same_args. cbn. auto 12.
  - cbn. rewrite drawn_eq. unfold same_args. cbn. auto 12.
Qed.
Lemma animate_err w v : (1 <= w_range w)%nat -> (1 <= w_n w)%nat -> -1 <= v -> Z.of_nat (w_n w) < v + Z.of_nat (w_range w) -> animate v w = (w, Some IndexError).
Proof.
  intros R N V B. unfold animate, label_text. destruct (w_range w) as [|[|r]] eqn:E; [lia| |].
  - rewrite pyidx_big by lia. reflexivity.
  - rewrite (pyidx_big _ (v + Z.of_nat (S (S r)) - 1)) by lia. destruct (Z.ltb_spec v (Z.of_nat (w_n w))).
    + rewrite pyidx_resolve by lia. reflexivity.
    + rewrite pyidx_big by lia. reflexivity.
Qed.

(** what holds in every state *)
Definition inv (n : nat) (pc iq full : bool) (r : nat) (w : widget) : Prop :=
  w_n w = n /\ w_pc w = pc /\ w_iq w = iq /\ w_fullt w = full /\ w_range w = r /\ -1 <= w_min w <= w_max w
  /\ exists days, List.length days = r /\ shows w days.
Definition allowed (n : nat) (o : op) : Prop := match o with Zoom a b => (a <= b < n)%nat | _ => True end.
Lemma clamp_bounds lo hi z : lo <= hi -> lo <= clamp lo hi z <= hi.
Proof. intros H. unfold clamp. destruct (Z.leb_spec z lo); [lia|]. destruct (Z.leb_spec hi z); lia. Qed.
Lemma inv_step n pc iq full r w o : (1 <= n)%nat -> (1 <= r)%nat -> inv n pc iq full r w -> allowed n o -> inv n pc iq full r (fst (step w o)).
Proof.
  intros N R (A & B & C & D & E & G & days & L & S) O. destruct o as [z|a b|]; cbn [step].
  - pose proof (clamp_bounds (w_min w) (w_max w) z ltac:(lia)) as K. set (v := clamp (w_min w) (w_max w) z) in *. clearbody v.
    set (w1 := mkwid _ _ _ _ _ _ _ _ _ _). assert (S1 : shows w1 days) by exact S.
    destruct (Z.ltb_spec (Z.of_nat n) (v + Z.of_nat r)) as [X|X].
    + rewrite animate_err by (cbn; rewrite ?A, ?E; lia). unfold inv. cbn. repeat split; auto; try lia. exists days. auto.
    + pose proof (animate_ok w1 v days S1) as Y. cbn in Y. rewrite A, E in Y. specialize (Y L R N ltac:(lia) X). destruct Y as (_ & Y & Z & _).
      destruct Z as (Z1 & Z2 & Z3 & Z4 & Z5 & Z6 & Z7 & Z8). cbn in Z1, Z2, Z3, Z4, Z5, Z6, Z7, Z8. unfold inv. rewrite Z1, Z2, Z3, Z4, Z5, Z6, Z7. repeat split; auto; try lia.
      eexists. split; [|exact Y]. now rewrite map_length, seq_length.
  - cbn in O. unfold inv. cbn. repeat split; auto; try lia. exists days. auto.
  - unfold inv. cbn. repeat split; auto; try lia. exists days. auto.
Qed.
Lemma inv_run n pc iq full r l : forall w, (1 <= n)%nat -> (1 <= r)%nat -> inv n pc iq full r w -> Forall (allowed n) l -> inv n pc iq full r (run w l).
Proof. induction l as [|o l IH]; intros w N R I F; [exact I|]. inversion F; subst. apply IH; auto. apply inv_step; auto. Qed.
Lemma create_spec n pc iq full r : (1 <= r <= n)%nat ->
  exists w, create n pc iq full r = Ok w /\ inv n pc iq full r w /\ shows w (seq 0 r) /\ w_val w = 0 /\ w_min w = 0 /\ w_max w = Z.of_nat n - 1.
Proof.
  intros H. unfold create, plotlines.
  assert (E : mapM (pyidx n) (map Z.of_nat (seq 0 r)) = Ok (seq 0 r)).
  { assert (X : forall k, In k (seq 0 r) -> (k < n)%nat) by (intros k K; apply in_seq in K; lia). revert X. generalize (seq 0 r). intros l X.
    induction l as [|k l IH]; [reflexivity|]. cbn [map mapM]. rewrite pyidx_ok by (apply X; now left). cbn [bind]. rewrite IH; [reflexivity|]. intros k' K. apply X. now right. }
  rewrite E. cbn [bind]. rewrite (pyidx_ok n 0 ltac:(lia) : pyidx n 0 = Ok 0%nat). cbn [bind]. eexists. split; [reflexivity|]. unfold inv, shows. cbn. rewrite drawn_eq.
  repeat split; auto; try lia. exists (seq 0 r). rewrite seq_length, drawn_eq. auto.
Qed.

(** The figure can be created if there are as many measurements as shown at once, and shows the first ones. *)
Theorem C165_initial : forall n pc iq full r, (1 <= r)%nat ->
  ((r <= n)%nat -> exists w, create n pc iq full r = Ok w /\ w_fig w = drawn pc iq full (seq 0 r) /\ w_val w = 0)
  /\ ((n < r)%nat -> create n pc iq full r = Err IndexError).
Proof.
  intros n pc iq full r R. split; intros H.
  - destruct (create_spec n pc iq full r ltac:(lia)) as (w & E & I & S & V & _). exists w. destruct I as (_ & B & C & D & _). unfold shows in S. rewrite B, C, D in S. auto.
  - unfold create, plotlines.
    assert (E : forall m b, (b <= n)%nat -> (n < b + m)%nat -> mapM (pyidx n) (map Z.of_nat (seq b m)) = Err IndexError).
    { induction m as [|m IH]; intros b B1 B2; [lia|]. cbn [seq map mapM]. destruct (Nat.eq_dec b n) as [->|NE].
      - rewrite pyidx_big by lia. reflexivity.
      - rewrite pyidx_ok by lia. cbn [bind]. rewrite IH by lia. reflexivity. }
    rewrite E by lia. reflexivity.
Qed.
Print Assumptions C165_initial.

(** After any movements of the slider and zooms, moving the slider to v shows exactly the measurements v, ..., v + r - 1, if
    they exist, every line with the angles and values of its measurement, and their dates. *)
Theorem C165_current : forall n pc iq full r w l z v,
  (1 <= r)%nat -> create n pc iq full r = Ok w -> Forall (allowed n) l ->
  let w1 := fst (step (run w l) (Move z)) in
  w_val w1 = Z.of_nat v -> (v + r <= n)%nat ->
  snd (step (run w l) (Move z)) = None /\ w_fig w1 = drawn pc iq full (seq v r)
  /\ w_label w1 = (if Nat.eqb r 1 then One v else Range v (v + r - 1)).
Proof.
  intros n pc iq full r w l z v R C F w1 V H.
  assert (N : (1 <= n)%nat) by lia.
  destruct (create_spec n pc iq full r ltac:(lia)) as (w' & E & I & _). rewrite E in C. injection C as <-.
  pose proof (inv_run n pc iq full r l w' N R I F) as (A & B & C & D & G & K & days & L & S).
  subst w1. set (x := run w' l) in *. clearbody x. cbn [step] in *. set (u := clamp (w_min x) (w_max x) z) in *.
  pose proof (clamp_bounds (w_min x) (w_max x) z ltac:(lia)) as K2. fold u in K2. clearbody u.
  set (x1 := mkwid _ _ _ _ _ _ _ _ _ _) in *.
  assert (U : u = Z.of_nat v).
  { destruct (Z.ltb_spec (Z.of_nat n) (u + Z.of_nat r)) as [X|X].
    - rewrite animate_err in V by (cbn; rewrite ?A, ?G; lia). exact V.
    - pose proof (animate_ok x1 u days S) as Y. cbn in Y. rewrite A, G in Y. specialize (Y L R N ltac:(lia) X). destruct Y as (_ & _ & Z & _).
      destruct Z as (_ & _ & _ & _ & _ & _ & _ & Z8). rewrite Z8 in V. exact V. }
  subst u. pose proof (animate_ok x1 (Z.of_nat v) days S) as Y. cbn in Y. rewrite A, G in Y. specialize (Y L R N ltac:(lia) ltac:(lia)).
  destruct Y as (Y1 & Y2 & Y3 & Y4). split; [exact Y1|]. destruct Y3 as (_ & Z2 & Z3 & Z4 & _). cbn in Z2, Z3, Z4. unfold shows in Y2. rewrite Z2, Z3, Z4, B, C, D in Y2. split.
  - rewrite Y2. f_equal. assert (Q : forall m b, map (fun k => resolve n (Z.of_nat v + Z.of_nat k)) (seq b m) = seq (v + b) m).
    { induction m as [|m IH]; intros b; [reflexivity|]. cbn [seq map]. rewrite IH. f_equal; [|now rewrite Nat.add_succ_r].
      rewrite <- Nat2Z.inj_add. apply resolve_nat. }
    rewrite Q. now rewrite Nat.add_0_r.
  - rewrite Y4. rewrite resolve_nat. replace (Z.of_nat v + Z.of_nat r - 1) with (Z.of_nat (v + r - 1)) by lia. rewrite resolve_nat. reflexivity.
Qed.
Print Assumptions C165_current.

(** If one measurement is shown at a time and the plot is not zoomed, the figure always shows the one selected by the slider. *)
Theorem C165_single : forall n pc iq full w l,
  create n pc iq full 1 = Ok w -> Forall no_zoom l ->
  exists v, (v < n)%nat /\ w_val (run w l) = Z.of_nat v /\ w_fig (run w l) = drawn pc iq full [v] /\ w_label (run w l) = One v.
Proof.
  intros n pc iq full w l C F.
  destruct (le_lt_dec 1 n) as [N|N].
  2: { destruct (proj2 (C165_initial n pc iq full 1 ltac:(lia)) ltac:(lia)). rewrite (proj2 (C165_initial n pc iq full 1 ltac:(lia)) ltac:(lia)) in C. discriminate. }
  destruct (create_spec n pc iq full 1 ltac:(lia)) as (w' & E & I & S & V & MI & MA). rewrite E in C. injection C as ->.
  assert (LB : w_label w = One 0). { unfold create in E. destruct (plotlines n pc iq full 1) as [f|]; [|discriminate]. cbn [bind] in E. rewrite (pyidx_ok n 0 ltac:(lia) : pyidx n 0 = Ok 0%nat) in E. cbn [bind] in E. injection E as <-. reflexivity. }
  assert (G : inv n pc iq full 1 (run w l) /\ w_min (run w l) = 0 /\ w_max (run w l) = Z.of_nat n - 1 /\
    exists v, (v < n)%nat /\ w_val (run w l) = Z.of_nat v /\ w_fig (run w l) = drawn pc iq full [v] /\ w_label (run w l) = One v).
  2: { apply G. }
  induction l as [|o l IH] using rev_ind.
  - cbn [run fold_left]. split; [exact I|]. split; [exact MI|]. split; [exact MA|]. exists O. destruct I as (_ & B & C & D & _). unfold shows in S. rewrite B, C, D in S. auto.
  - apply Forall_app in F. destruct F as [F1 F2]. specialize (IH F1). destruct IH as (J & M1 & M2 & v & V1 & V2 & V3 & V4).
    unfold run in *. rewrite fold_left_app. cbn [fold_left]. set (x := fold_left (fun w o => fst (step w o)) l w) in *. clearbody x.
    inversion F2 as [|? ? F3 _]; subst. destruct o as [z|a b|]; [|destruct F3|].
    + pose proof (inv_step n pc iq full 1 x (Move z) N (le_n 1) J Logic.I) as J2. split; [exact J2|].
      destruct J as (A & B & C & D & G & K & days & L & S2). cbn [step] in *.
      pose proof (clamp_bounds (w_min x) (w_max x) z ltac:(lia)) as K2. set (u := clamp (w_min x) (w_max x) z) in *. clearbody u.
      set (x1 := mkwid _ _ _ _ _ _ _ _ _ _) in *. pose proof (animate_ok x1 u days S2) as Y. change (w_n x1) with (w_n x) in Y. change (w_range x1) with (w_range x) in Y. rewrite A, G in Y. specialize (Y L (le_n 1) N ltac:(lia) ltac:(lia)).
      destruct Y as (Y1 & Y2 & Y3 & Y4). destruct Y3 as (_ & Z2 & Z3 & Z4 & _ & Z6 & Z7 & Z8). rewrite Z6, Z7, Z8. cbn. split; [exact M1|]. split; [exact M2|].
      exists (Z.to_nat u). split; [lia|]. split; [lia|]. cbn in Z2, Z3, Z4. unfold shows in Y2. rewrite Z2, Z3, Z4, B, C, D in Y2. cbn [seq map] in Y2. change (Z.of_nat 0) with 0 in Y2. rewrite Z.add_0_r in Y2.
      assert (Q : resolve n u = Z.to_nat u) by (unfold resolve; destruct (Z.ltb_spec u 0); [lia|reflexivity]). rewrite Q in Y2, Y4. cbn in Y4. auto.
    + cbn. split; [exact J|]. eauto 10.
Qed.
Print Assumptions C165_single.

(** If more than one measurement is shown, the last positions of the slider raise an IndexError and leave figure and label as
    they were, so that the slider is at v but the figure shows other measurements. *)
Theorem C165_end_refuted : forall n pc iq full r w l v,
  (2 <= r)%nat -> create n pc iq full r = Ok w -> Forall no_zoom l -> (v < n)%nat -> (n < v + r)%nat ->
  snd (step (run w l) (Move (Z.of_nat v))) = Some IndexError
  /\ w_val (fst (step (run w l) (Move (Z.of_nat v)))) = Z.of_nat v
  /\ w_fig (fst (step (run w l) (Move (Z.of_nat v)))) = w_fig (run w l)
  /\ w_label (fst (step (run w l) (Move (Z.of_nat v)))) = w_label (run w l).
Proof.
  intros n pc iq full r w l v R C F V B.
  destruct (le_lt_dec r n) as [RN|RN].
  2: { rewrite (proj2 (C165_initial n pc iq full r ltac:(lia)) RN) in C. discriminate. }
  destruct (create_spec n pc iq full r ltac:(lia)) as (w' & E & I & S & VV & MI & MA). rewrite E in C. injection C as ->.
  assert (F' : Forall (allowed n) l). { eapply Forall_impl; [|exact F]. intros [z|a b|]; cbn; tauto. }
  assert (BND : w_min (run w l) = 0 /\ w_max (run w l) = Z.of_nat n - 1).
  { clear S VV. revert MI MA I. clear E. revert w F F'. induction l as [|o l IH]; intros w F F' MI MA I; [auto|].
    inversion F as [|? ? F1 F2]; subst. inversion F' as [|? ? G1 G2]; subst. cbn [run fold_left]. apply IH; auto.
    - destruct o as [z|a b|]; [|destruct F1|exact MI]. cbn [step]. destruct I as (A & B1 & C & D & G & K & days & L & S).
      pose proof (clamp_bounds (w_min w) (w_max w) z ltac:(lia)) as K2. set (u := clamp (w_min w) (w_max w) z) in *. clearbody u.
      set (x1 := mkwid _ _ _ _ _ _ _ _ _ _). destruct (Z.ltb_spec (Z.of_nat n) (u + Z.of_nat r)) as [X|X].
      + rewrite animate_err by (cbn; rewrite ?A, ?G; lia). exact MI.
      + pose proof (animate_ok x1 u days S) as Y. cbn in Y. rewrite A, G in Y. specialize (Y L ltac:(lia) ltac:(lia) ltac:(lia) X). destruct Y as (_ & _ & Z & _).
        destruct Z as (_ & _ & _ & _ & _ & Z6 & _). rewrite Z6. exact MI.
    - destruct o as [z|a b|]; [|destruct F1|exact MA]. cbn [step]. destruct I as (A & B1 & C & D & G & K & days & L & S).
      pose proof (clamp_bounds (w_min w) (w_max w) z ltac:(lia)) as K2. set (u := clamp (w_min w) (w_max w) z) in *. clearbody u.
      set (x1 := mkwid _ _ _ _ _ _ _ _ _ _). destruct (Z.ltb_spec (Z.of_nat n) (u + Z.of_nat r)) as [X|X].
      + rewrite animate_err by (cbn; rewrite ?A, ?G; lia). exact MA.
      + pose proof (animate_ok x1 u days S) as Y. cbn in Y. rewrite A, G in Y. specialize (Y L ltac:(lia) ltac:(lia) ltac:(lia) X). destruct Y as (_ & _ & Z & _).
        destruct Z as (_ & _ & _ & _ & _ & _ & Z7 & _). rewrite Z7. exact MA.
    - apply inv_step; auto; lia. }
  pose proof (inv_run n pc iq full r l w ltac:(lia) ltac:(lia) I F') as (A & _ & _ & _ & G & _).
  set (x := run w l) in *. clearbody x. destruct BND as [B1 B2]. cbn [step]. rewrite B1, B2.
  assert (CL : clamp 0 (Z.of_nat n - 1) (Z.of_nat v) = Z.of_nat v). { unfold clamp. destruct (Z.leb_spec (Z.of_nat v) 0); [lia|]. destruct (Z.leb_spec (Z.of_nat n - 1) (Z.of_nat v)); lia. }
  rewrite CL. rewrite animate_err by (cbn; rewrite ?A, ?G; lia). cbn. auto.
Qed.
Print Assumptions C165_end_refuted.

(** Zooming to a range that contains the first measurement allows the position -1, which shows the last measurement; zooming to a
    range that contains the last one allows a position that raises an IndexError. *)
Theorem C165_zoom_refuted : forall n pc iq full w b,
  create n pc iq full 1 = Ok w -> (b < n)%nat ->
  (w_val (run w [Zoom 0 b; Move (-1)]) = -1 /\ w_fig (run w [Zoom 0 b; Move (-1)]) = drawn pc iq full [(n - 1)%nat])
  /\ (forall a, (a < n)%nat -> snd (step (run w [Zoom a (n - 1)]) (Move (Z.of_nat n))) = Some IndexError
        /\ w_val (fst (step (run w [Zoom a (n - 1)]) (Move (Z.of_nat n)))) = Z.of_nat n
        /\ w_fig (fst (step (run w [Zoom a (n - 1)]) (Move (Z.of_nat n)))) = drawn pc iq full [0%nat]).
Proof.
  intros n pc iq full w b C B.
  destruct (create_spec n pc iq full 1 ltac:(lia)) as (w' & E & I & S & VV & MI & MA). rewrite E in C. injection C as ->.
  destruct I as (A & B1 & C & D & G & K & _). split.
  - cbn [run fold_left step]. cbn [fst w_min w_max]. cbn [clamp]. change (clamp (Z.of_nat 0 - 1) (Z.of_nat b + 1) (-1)) with (-1).
    set (x1 := mkwid _ _ _ _ _ _ _ _ _ _). pose proof (animate_ok x1 (-1) [0%nat] S) as Y. change (w_n x1) with (w_n w) in Y. change (w_range x1) with (w_range w) in Y. rewrite A, G in Y.
    specialize (Y eq_refl (le_n 1) ltac:(lia) ltac:(lia) ltac:(lia)). destruct Y as (_ & Y2 & Y3 & _). destruct Y3 as (_ & Z2 & Z3 & Z4 & _ & _ & _ & Z8).
    cbn in Z2, Z3, Z4, Z8. rewrite Z8. split; [reflexivity|]. unfold shows in Y2. rewrite Z2, Z3, Z4, B1, C, D in Y2. cbn [seq map] in Y2.
    change (-1 + Z.of_nat 0) with (-1) in Y2. assert (Q : resolve n (-1) = (n - 1)%nat) by (unfold resolve; change (-1 <? 0) with true; cbv iota; lia). rewrite Q in Y2. exact Y2.
  - intros a HA. cbn [run fold_left step]. cbn [fst w_min w_max].
    assert (CL : clamp (Z.of_nat a - 1) (Z.of_nat (n - 1) + 1) (Z.of_nat n) = Z.of_nat n). { unfold clamp. destruct (Z.leb_spec (Z.of_nat n) (Z.of_nat a - 1)); [lia|]. destruct (Z.leb_spec (Z.of_nat (n - 1) + 1) (Z.of_nat n)); lia. }
    rewrite CL. rewrite animate_err by (cbn; rewrite ?A, ?G; lia). cbn. unfold shows in S. rewrite B1, C, D in S. auto.
Qed.
Print Assumptions C165_zoom_refuted.

(** three measurements, two of them at a time *)
Example C165_example : exists w, create 3 true false true 2 = Ok w
  /\ w_fig (run w [Move 1]) = drawn true false true [1; 2]%nat
  /\ g_frac (w_fig (run w [Move 1])) = [(1, Frac Surf 1); (1, Frac Vol 1); (2, Frac Surf 2); (2, Frac Vol 2)]%nat
  /\ w_val (run w [Move 1; Move 2]) = 2 /\ w_fig (run w [Move 1; Move 2]) = drawn true false true [1; 2]%nat.
Proof. eexists. split; [reflexivity|]. repeat split. Qed.
