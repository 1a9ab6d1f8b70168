(** C211: which arguments RT1 accepts. *)
From Coq Require Import List String Bool QArith Arith.
From Verif Require Import Base Rin_Model Rin_Spec.
Import ListNotations.
Local Open Scope string_scope.

Lemma ge0_iff : forall e, ge0 e = true <-> exists x, e = Some x /\ 0 <= x.
Proof. intros [x|]; cbn; [rewrite Qle_bool_iff; split; [eauto|intros (y & E & H); inversion E; now subst]|split; [discriminate|intros (y & E & _); discriminate]]. Qed.
Lemma check_iff : forall v, check v = Ok tt <-> accepted v.
Proof.
  intros v. unfold accepted. destruct v as [| |x|l|]; cbn [check any_ge0 bind].
  - split; [discriminate|intros [H|[(x & H & _)|(l & x & H & _)]]; discriminate].
  - split; auto.
  - unfold assert_. destruct (ge0 x) eqn:G.
    + apply ge0_iff in G. destruct G as (y & -> & H). split; [right; left; eauto|reflexivity].
    + split; [discriminate|]. intros [H|[(y & H & L)|(l & y & H & _)]]; try discriminate. inversion H; subst. assert (ge0 (Some y) = true) by (apply ge0_iff; eauto). congruence.
  - unfold assert_. destruct (existsb ge0 l) eqn:G.
    + apply existsb_exists in G. destruct G as (e & He & G). apply ge0_iff in G. destruct G as (y & -> & H). split; [right; right; eauto|reflexivity].
    + split; [discriminate|]. intros [H|[(y & H & L)|(l' & y & H & I & L)]]; try discriminate. inversion H; subst. assert (existsb ge0 l' = true) by (apply existsb_exists; exists (Some y); split; [exact I|apply ge0_iff; eauto]). congruence.
  - split; [discriminate|intros [H|[(x & H & _)|(l & x & H & _)]]; discriminate].
Qed.

(** exactly these arguments are accepted *)
Theorem C211_accepted : forall a, init a = Ok tt <->
  (exists g, g_geometry a = Some g /\ String.length g = 4%nat) /\ (exists omega tau, g_V a = Some (omega, tau) /\ accepted omega /\ accepted tau) /\ (exists N, g_SRF a = Some N /\ accepted N).
Proof.
  intros [g V S b]. unfold init. cbn [g_geometry g_V g_SRF]. split.
  - destruct g as [g|]; [|discriminate]. unfold assert_ at 1. destruct (Nat.eqb_spec (String.length g) 4); [|discriminate]. cbn [bind]. destruct V as [[om ta]|]; [|discriminate]. destruct S as [N|]; [|discriminate].
    unfold assert_ at 1. destruct (given om); [|discriminate]. cbn [bind]. unfold assert_ at 1. destruct (given ta); [|discriminate]. cbn [bind].
    destruct (check om) as [[]|] eqn:C1; [|discriminate]. cbn [bind]. destruct (check ta) as [[]|] eqn:C2; [|discriminate]. cbn [bind]. intros C3.
    split; [eauto|]. split; [exists om, ta; split; [reflexivity|split; now apply check_iff]|exists N; split; [reflexivity|now apply check_iff]].
  - intros ((g' & -> & L) & (om & ta & -> & C1 & C2) & (N & -> & C3)). rewrite L. cbn [assert_ Nat.eqb bind].
    assert (G : forall v, accepted v -> given v = true) by (intros v [->|[(x & -> & _)|(l & x & -> & _)]]; reflexivity).
    rewrite (G om C1), (G ta C2). apply check_iff in C1. apply check_iff in C2. apply check_iff in C3. cbn [assert_ bind]. rewrite C1. cbn [bind]. rewrite C2. exact C3.
Qed.
Print Assumptions C211_accepted.
(** otherwise an AssertionError, or a TypeError if something cannot be compared *)
Theorem C211_errors : forall a e, init a = Err e -> e = AssertionError \/
  e = TypeError /\ exists v, (v = PBad \/ v = PNone) /\ ((exists w, g_V a = Some (v, w)) \/ (exists w, g_V a = Some (w, v)) \/ g_SRF a = Some v).
Proof.
  intros [g V S b] e. unfold init. cbn [g_geometry g_V g_SRF]. destruct g as [g|]; [|intros E; inversion E; auto]. unfold assert_ at 1. destruct (Nat.eqb_spec (String.length g) 4); cbn [bind]; [|intros E; inversion E; auto].
  destruct V as [[om ta]|]; [|intros E; inversion E; auto]. destruct S as [N|]; [|intros E; inversion E; auto].
  unfold assert_ at 1. destruct (given om) eqn:G1; cbn [bind]; [|intros E; inversion E; auto]. unfold assert_ at 1. destruct (given ta) eqn:G2; cbn [bind]; [|intros E; inversion E; auto].
  assert (K : forall v x, check v = Err x -> x = AssertionError \/ x = TypeError /\ (v = PBad \/ v = PNone)).
  { intros v x. destruct v as [| |y|l|]; cbn [check any_ge0 bind]; unfold assert_.
    - intros H; inversion H; auto.
    - discriminate.
    - destruct (ge0 y); intros H; inversion H; auto.
    - destruct (existsb ge0 l); intros H; inversion H; auto.
    - intros H; inversion H; auto. }
  destruct (check om) as [[]|x] eqn:C1; cbn [bind].
  - destruct (check ta) as [[]|x] eqn:C2; cbn [bind].
    + intros C3. destruct (K _ _ C3) as [->|[-> H]]; [now left|]. right. split; [reflexivity|]. exists N. split; [exact H|]. right; right. reflexivity.
    + intros E. assert (X : x = e) by congruence. subst x. destruct (K _ _ C2) as [->|[-> H]]; [now left|]. right. split; [reflexivity|]. exists ta. split; [exact H|]. right; left. eauto.
  - intros E. assert (X : x = e) by congruence. subst x. destruct (K _ _ C1) as [->|[-> H]]; [now left|]. right. split; [reflexivity|]. exists om. split; [exact H|]. left. eauto.
Qed.
Print Assumptions C211_errors.
(** numbers and expressions: what is accepted is what is meant *)
Theorem C211_numbers : forall v, (forall l, v <> PArr l) -> (accepted v <-> admissible v).
Proof.
  intros v H. unfold accepted, admissible. split; intros [E|[E|E]]; auto.
  - destruct E as (l & x & -> & _). now destruct (H l).
  - destruct E as (l & -> & _). now destruct (H l).
Qed.
Print Assumptions C211_numbers.
(** non-empty arrays: everything admissible is accepted, but one element that is not negative is enough: negative elements
    and nan are accepted next to it *)
Theorem C211_arrays_refuted : forall l, (l <> [] -> admissible (PArr l) -> accepted (PArr l)) /\
  forall x e N omega, 0 <= x -> accepted N -> accepted omega -> (forall y, e = Some y -> y < 0) -> In (Some x) l -> In e l ->
  init (mkr (Some "mono") (Some (omega, PArr l)) (Some N) (PNum None)) = Ok tt /\ ~ admissible (PArr l).
Proof.
  intros l. split.
  - intros NE [E|[(x & E & _)|(l' & E & H)]]; try discriminate. inversion E; subst. destruct l' as [|e l']; [congruence|]. destruct (H e (or_introl eq_refl)) as (x & -> & L). right; right. exists (Some x :: l'), x. split; [reflexivity|]. split; [now left|exact L].
  - intros x e N omega Hx AN AO He Ix Ie. split.
    + apply C211_accepted. cbn [g_geometry g_V g_SRF]. split; [exists "mono"; auto|]. split; [|eauto]. exists omega, (PArr l). split; [reflexivity|]. split; [exact AO|]. right; right. eauto.
    + intros [E|[(y & E & _)|(l' & E & H)]]; try discriminate. inversion E; subst. destruct (H e Ie) as (y & -> & L). specialize (He y eq_refl). apply (Qlt_not_le _ _ He L).
Qed.
Print Assumptions C211_arrays_refuted.
(** any four characters are a geometry, and bsf is not looked at *)
Theorem C211_unchecked_refuted : forall a g g' b, g_geometry a = Some g -> String.length g = 4%nat -> String.length g' = 4%nat ->
  init (mkr (Some g') (g_V a) (g_SRF a) b) = init a.
Proof. intros [ga V S b0] g g' b E L L'. cbn in E. subst ga. unfold init. cbn [g_geometry g_V g_SRF]. now rewrite L, L'. Qed.
Print Assumptions C211_unchecked_refuted.
Example C211_example :
  init (mkr (Some "mono") (Some (PNum (Some (3#10)), PArr [Some (1#2); Some (-1#2); None])) (Some (PNum (Some 1))) (PNum (Some (5#1)))) = Ok tt /\
  init (mkr (Some "Mono") (Some (PNum (Some (3#10)), PNum (Some (1#2)))) (Some PSym) PNone) = Ok tt /\
  init (mkr (Some "mono") (Some (PNum (Some (3#10)), PNum (Some (-1#2)))) (Some (PNum (Some 1))) (PNum (Some 0))) = Err AssertionError /\
  init (mkr (Some "mono") (Some (PNum (Some (3#10)), PBad)) (Some (PNum (Some 1))) (PNum (Some 0))) = Err TypeError.
Proof. repeat split. Qed.
