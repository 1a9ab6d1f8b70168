(** Proofs for the exact form of C51. *)
From Coq Require Import List Arith Bool String Lia.
From Verif Require Import Base Pip_Model Pip_Spec Pip_Proofs Pip2_Proofs Pip3_Proofs Pip4_Proofs Exa10_Spec.
Import ListNotations.

Section P.
Context {Job Row : Type}.
Notation state := (@state Job Row).
Variable p : @params Job Row.
Ltac pl := split; [discriminate|intros ?; discriminate].

Lemma count_upd {A} (f : A -> bool) l i x y : nth_error l i = Some y ->
  List.length (filter f (upd i x l)) + (if f y then 1 else 0) = List.length (filter f l) + (if f x then 1 else 0).
Proof.
  revert i. induction l as [|z l IH]; intros [|i] H; try discriminate; cbn [upd filter nth_error] in *.
  - injection H as ->. destruct (f x), (f y); cbn; lia.
  - specialize (IH i H). destruct (f z); cbn [List.length]; lia.
Qed.
Lemma count_pos {A} (f : A -> bool) l : 1 <= List.length (filter f l) -> exists i x, nth_error l i = Some x /\ f x = true.
Proof.
  induction l as [|z l IH]; cbn [filter]; [cbn; lia|]. destruct (f z) eqn:E; intros H; [exists 0, z; auto|].
  destruct (IH H) as (i & x & I & X). exists (S i), x. auto.
Qed.

(** ** the processing can not go on *)
Definition Doomed (s : state) : Prop :=
  main s = PRun /\ todo s <> [] /\ should_wait s = false /\ stop_ s = true /\
  (how_many at_gate s = 0 \/ cache p + how_many at_get s + (how_many at_gate s - 1) <= List.length (outq s)).
Lemma doomed_writer (s : state) w x y q flag : Doomed s -> nth_error (writers s) w = Some x ->
  (at_gate y = true -> at_gate x = true) ->
  (flag = false) ->
  (how_many at_gate s = 0 \/ (List.length (outq s) + (if at_get y then 1 else 0) <= List.length q + (if at_get x then 1 else 0) + (if at_gate x then if at_gate y then 0 else if Nat.eqb (how_many at_gate s) 1 then List.length (outq s) + 1 else 1 else 0))) ->
  Doomed (set_writer w y (set_flags flag (should_stop s) true (ready s) (set_outq q s))).
Proof.
  intros (M & T & W & S & D) E G -> L. split; [exact M|]. split; [exact T|]. split; [reflexivity|]. split; [reflexivity|].
  unfold how_many in *. cbn [set_writer set_flags set_outq writers outq].
  pose proof (count_upd at_gate (writers s) w y x E) as C1. pose proof (count_upd at_get (writers s) w y x E) as C2.
  destruct D as [D|D]; [left; destruct (at_gate x), (at_gate y); try lia; specialize (G eq_refl); discriminate|].
  destruct L as [L|L]; [left; destruct (at_gate x), (at_gate y); try lia; specialize (G eq_refl); discriminate|].
  destruct (at_gate x) eqn:X, (at_gate y) eqn:Y, (at_get x), (at_get y); try (specialize (G eq_refl); discriminate);
    try destruct (Nat.eqb_spec (List.length (filter at_gate (writers s))) 1); lia.
Qed.
Lemma doomed_keep (s s' : state) : Doomed s -> main s' = main s -> todo s' = todo s -> should_wait s' = should_wait s \/ should_wait s' = false -> stop_ s' = stop_ s \/ stop_ s' = true ->
  writers s' = writers s -> List.length (outq s) <= List.length (outq s') -> Doomed s'.
Proof.
  intros (M & T & W & S & D) A B C E F L. split; [congruence|]. split; [congruence|]. split; [destruct C; congruence|]. split; [destruct E; congruence|].
  unfold how_many in *. rewrite F. lia.
Qed.
Ltac keep := match goal with D : Doomed ?s |- _ => apply (doomed_keep s); [exact D|try reflexivity; auto ..] end.
Lemma doomed_step e (s s' : state) : Doomed s -> step p e s = Some s' -> Doomed s'.
Proof.
  intros Z H. pose proof Z as (M & T & W & S & D).
  assert (WR : forall w x y, nth_error (writers s) w = Some x -> (at_gate y = true -> at_gate x = true) -> (at_get y = true -> at_get x = true) -> Doomed (set_writer w y s)).
  { intros w x y E G G'. pose proof (doomed_writer s w x y (outq s) false Z E G eq_refl) as X.
    assert (Y : set_writer w y (set_flags false (should_stop s) true (ready s) (set_outq (outq s) s)) = set_writer w y s).
    { unfold set_writer, set_flags, set_outq. cbn. now rewrite W, S. }
    rewrite Y in X. apply X. right. destruct (at_get y); [rewrite (G' eq_refl)|]; lia. }
  destruct e; cbn [step] in H.
  - rewrite W in H. destruct (nth_error (todo s) i); discriminate.
  - destruct (nth_error (running s) i); inversion H; subst. keep.
  - destruct (nth_error (combs s) c) as [x|]; [|discriminate]. unfold comb_step in H. destruct (c_pc x) as [| | |[]| |].
    + destruct (should_stop s && isnil (queue s)); inversion H; subst; keep.
    + destruct (stop_ s); inversion H; subst; keep.
    + destruct (Nat.ltb (c_n x) (chunk p)); [destruct (queue s)|]; inversion H; subst; keep.
    + inversion H; subst; keep.
    + inversion H; subst; keep.
    + inversion H; subst; keep.
    + destruct (isnil (c_thr x)); inversion H; subst; keep.
    + discriminate.
  - destruct (nth_error (combs s) c) as [x|]; [|discriminate]. destruct (c_pc x); try discriminate.
    destruct (Nat.ltb _ _); inversion H; subst; keep.
  - destruct (nth_error (combs s) c) as [x|]; [|discriminate]. destruct (nth_error (c_thr x) i) as [rs|]; [|discriminate].
    destruct (combine_results rs); inversion H; subst; keep. cbn [outq set_outq]. rewrite app_length. lia.
  - destruct (nth_error (writers s) w) as [x|] eqn:E; [|discriminate]. destruct x as [| | | |b|b|]; cbn [writer_step] in H.
    + destruct (ready s && isnil (outq s)); inversion H; subst; apply (WR w WTop); auto; discriminate.
    + rewrite S in H. inversion H; subst. apply (WR w WTest); auto; discriminate.
    + assert (P1 : 1 <= how_many at_gate s).
      { unfold how_many. pose proof (count_upd at_gate (writers s) w WTop WGate E) as C. cbn [at_gate] in C. lia. }
      destruct D as [D|D]; [lia|]. replace (Nat.ltb (List.length (outq s)) (cache p)) with false in H by (symmetry; apply Nat.ltb_ge; lia).
      rewrite S in H. inversion H; subst.
      assert (Y : set_flags false (should_stop s) true (ready s) s = set_flags false (should_stop s) true (ready s) (set_outq (outq s) s)) by (destruct s; reflexivity).
      rewrite Y. apply (doomed_writer s w WGate WGet (outq s) false Z E); [discriminate|reflexivity|]. right. cbn [at_get at_gate]. destruct (Nat.eqb _ _); lia.
    + destruct (outq s) as [|b q] eqn:Q; [discriminate|]. inversion H; subst.
      assert (Y : set_writer w (WHave b) (set_outq q s) = set_writer w (WHave b) (set_flags false (should_stop s) true (ready s) (set_outq q s))).
      { unfold set_writer, set_flags, set_outq. cbn. now rewrite W, S. }
      rewrite Y. apply (doomed_writer s w WGet (WHave b) q false Z E); [discriminate|reflexivity|]. right. cbn [at_get at_gate]. rewrite Q. cbn [List.length]. lia.
    + destruct (locked s); inversion H; subst. apply (WR w (WHave b)); auto; discriminate.
    + destruct b as [|[k [rows|]] b]; inversion H; subst.
      * apply (WR w (WWriting [])); auto; discriminate.
      * apply (doomed_keep (set_writer w (WWriting b) s)); try reflexivity; auto. apply (WR w (WWriting ((k, Some rows) :: b))); auto; discriminate.
      * apply (doomed_keep (set_writer w WTop s)); try reflexivity; auto. apply (WR w (WWriting ((k, None) :: b))); auto; discriminate.
    + discriminate.
  - destruct (nth_error (writers s) w) as [[| | | |b|b|]|] eqn:E; try discriminate. inversion H; subst. apply (WR w WGet); auto; discriminate.
  - destruct (nth_error (writers s) w) as [[| | | |b|b|]|] eqn:E; try discriminate. inversion H; subst.
    apply (doomed_keep (set_writer w WTop s)); try reflexivity; auto. apply (WR w (WWriting b)); auto; discriminate.
  - rewrite M in H. destruct (todo s) eqn:Et; [congruence|]. discriminate.
  - rewrite M in H. inversion H; subst; keep.
Qed.
Lemma doomed_run es : forall s s' : state, Doomed s -> run p es s = Some s' -> Doomed s'.
Proof.
  induction es as [|e es IH]; intros s s' Z H; cbn [run] in H; [inversion H; subst; exact Z|].
  destruct (step p e s) as [s1|] eqn:E; [|discriminate]. apply (IH s1); [now apply (doomed_step e s)|exact H].
Qed.

(** ** the processing can go on *)
Lemma drain_running n : forall s : state, List.length (running s) = n ->
  exists s', reach p s s' /\ running s' = [] /\ todo s' = todo s /\ should_wait s' = should_wait s /\ stop_ s' = stop_ s.
Proof.
  induction n as [|n IH]; intros s L.
  - exists s. split; [apply reach_refl|]. destruct (running s); [auto|discriminate].
  - destruct (running s) as [|j r] eqn:R; [discriminate|].
    set (s1 := set_queue (queue s ++ worker_put (what p j))%list (set_jobs (todo s) r s)).
    destruct (IH s1) as (s' & R' & A & B & C & D); [cbn in *; lia|]. exists s'. split; [|auto].
    eapply reach_trans; [|exact R']. apply (reach_one p (WFinish 0)); [pl|]. cbn [step]. rewrite R. reflexivity.
Qed.
Lemma open_gate_starts : 1 <= n_worker p -> forall n (s : state), List.length (todo s) = n -> should_wait s = true ->
  exists s', reach p s s' /\ todo s' = [] /\ stop_ s' = stop_ s.
Proof.
  intros PW n. induction n as [|n IH]; intros s L W.
  - exists s. split; [apply reach_refl|]. destruct (todo s); [auto|discriminate].
  - destruct (drain_running _ s eq_refl) as (s1 & R1 & A & B & C & D).
    destruct (todo s) as [|j r] eqn:T; [discriminate|].
    set (s2 := set_jobs r (running s1 ++ [j])%list s1).
    destruct (IH s2) as (s' & R' & X & Y); [cbn in *; lia|cbn; congruence|]. exists s'. split; [|split; [exact X|cbn in Y; congruence]].
    eapply reach_trans; [exact R1|]. eapply reach_trans; [|exact R']. apply (reach_one p (WStart 0)); [pl|]. cbn [step]. rewrite B. cbn [nth_error].
    rewrite C, W, A. cbn [andb List.length]. replace (Nat.ltb 0 (n_worker p)) with true by (symmetry; apply Nat.ltb_lt; lia). unfold s2. rewrite A. reflexivity.
Qed.
Lemma gate_opens : 1 <= cache p -> forall n (s : state), List.length (outq s) = n -> stop_ s = true -> gate_may_open p s ->
  exists s', reach p s s' /\ todo s' = todo s /\ stop_ s' = true /\ should_wait s' = true.
Proof.
  intros CA n. induction n as [n IH] using lt_wf_ind. intros s L S [K B]. rewrite L in B.
  destruct (count_pos at_gate (writers s) K) as (w & x & E & X). destruct x; try discriminate. clear X.
  set (sg := set_writer w WGet (set_flags (Nat.ltb (List.length (outq s)) (cache p)) (should_stop s) (stop_ s) (ready s) s)).
  assert (RG : reach p s sg) by (apply (reach_one p (SStep w)); [pl|]; cbn [step]; rewrite E; reflexivity).
  destruct (Nat.lt_ge_cases n (cache p)) as [C|C].
  - exists sg. split; [exact RG|]. split; [reflexivity|]. split; [exact S|]. unfold sg. cbn. apply Nat.ltb_lt. lia.
  - destruct (outq s) as [|b q] eqn:Q; [cbn in L; lia|]. cbn in L.
    destruct (Nat.lt_ge_cases 0 (how_many at_get s)) as [G|G].
    + destruct (count_pos at_get (writers s) G) as (v & y & F & Y). destruct y; try discriminate. clear Y.
      set (s1 := set_writer v (WHave b) (set_outq q s)).
      assert (R1 : reach p s s1) by (apply (reach_one p (SStep v)); [pl|]; cbn [step]; rewrite F; cbn [writer_step]; rewrite Q; reflexivity).
      pose proof (count_upd at_get (writers s) v (WHave b) WGet F) as C1. pose proof (count_upd at_gate (writers s) v (WHave b) WGet F) as C2. cbn [at_get at_gate] in C1, C2.
      destruct (IH (List.length q)) with (s := s1) as (s' & R' & T' & S' & W'); [lia|reflexivity|exact S| |].
      { split; unfold how_many in *; cbn [s1 set_writer set_outq writers outq]; lia. }
      exists s'. split; [eapply reach_trans; eassumption|]. auto.
    + assert (Eg : nth_error (writers sg) w = Some WGet) by (unfold sg; cbn; eapply nth_upd_same; exact E).
      set (s1 := set_writer w (WHave b) (set_outq q sg)).
      assert (R1 : reach p sg s1) by (apply (reach_one p (SStep w)); [pl|]; cbn [step]; rewrite Eg; unfold sg at 1; cbn [writer_step outq set_writer set_flags]; rewrite Q; reflexivity).
      pose proof (count_upd at_get (writers s) w (WHave b) WGate E) as C1. pose proof (count_upd at_gate (writers s) w (WHave b) WGate E) as C2. cbn [at_get at_gate] in C1, C2.
      assert (WS : writers s1 = upd w (WHave b) (writers s)) by (unfold s1, sg; cbn; apply upd_upd).
      destruct (IH (List.length q)) with (s := s1) as (s' & R' & T' & S' & W'); [lia|reflexivity|exact S| |].
      { split; unfold how_many in *; rewrite WS; cbn [s1 set_writer set_outq outq]; lia. }
      exists s'. split; [eapply reach_trans; [exact RG|]; eapply reach_trans; eassumption|]. auto.
Qed.
End P.
