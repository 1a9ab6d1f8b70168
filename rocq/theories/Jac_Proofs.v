(** Proofs for the chain rule. *)
From Coq Require Import ZArith Reals Lra Lia Bool Arith String List.
From Verif Require Import Base Jac_Model Jac_Spec.
Import ListNotations.
Local Open Scope list_scope.
Local Open Scope R_scope.

(** ** broadcasting *)
Lemma mapM_ok {A B} (f : A -> B) l : mapM (fun x => Ok (f x)) l = Ok (map f l).
Proof. induction l as [|x l IH]; [reflexivity|]. cbn [mapM map]. rewrite IH. reflexivity. Qed.
Lemma mapM_ext {A B} (f g : A -> res B) l : (forall x, In x l -> f x = g x) -> mapM f l = mapM g l.
Proof.
  induction l as [|x l IH]; intros H; [reflexivity|]. cbn [mapM]. rewrite H by (left; reflexivity).
  rewrite IH by (intros y Hy; apply H; right; exact Hy). reflexivity.
Qed.
Lemma bc_same {A} (op : A -> A -> res A) x y : List.length x = List.length y ->
  bc op x y = mapM (fun p => op (fst p) (snd p)) (combine x y).
Proof.
  intros L. destruct x as [|a [|a' x]], y as [|b [|b' y]]; try discriminate L; try reflexivity.
  unfold bc. rewrite (proj2 (Nat.eqb_eq _ _) L). reflexivity.
Qed.
Lemma bc_left {A} (op : A -> A -> res A) a y : bc op [a] y = mapM (op a) y.
Proof. reflexivity. Qed.
Lemma bc_right {A} (op : A -> A -> res A) x b : bc op x [b] = mapM (fun a => op a b) x.
Proof. destruct x as [|a [|a' x]]; reflexivity. Qed.

Definition shape (n m : nat) (l : list (list R)) : Prop :=
  List.length l = n /\ forall row, In row l -> List.length row = m.

Lemma concat_len n m l : shape n m l -> List.length (concat l) = (n * m)%nat.
Proof.
  intros [<- H]. induction l as [|r l IH]; [reflexivity|]. cbn [concat]. rewrite app_length, IH, (H r).
  - reflexivity. - left; reflexivity. - intros q Hq; apply H; right; exact Hq.
Qed.
Lemma nth_map' {A B} (f : A -> B) l c da db : (c < List.length l)%nat -> nth c (map f l) db = f (nth c l da).
Proof. intros H. rewrite (nth_indep _ db (f da)) by (rewrite map_length; exact H). apply map_nth. Qed.

Lemma map_map_shape (f : R -> R) n m l : shape n m l ->
  shape n m (map (map f) l) /\ forall c, (c < n * m)%nat -> nth c (concat (map (map f) l)) 0 = f (nth c (concat l) 0).
Proof.
  intros H. split.
  - destruct H as [<- H]. split; [apply map_length|]. intros r Hr. apply in_map_iff in Hr. destruct Hr as (q & <- & Hq).
    rewrite map_length. apply H, Hq.
  - intros c Hc. rewrite <- concat_map. apply nth_map'. rewrite (concat_len n m) by exact H. exact Hc.
Qed.

Lemma rows_concat (op : R -> R -> R) m x y : List.length x = List.length y ->
  (forall r, In r x -> List.length r = m) -> (forall r, In r y -> List.length r = m) ->
  concat (map (fun p => map (fun q => op (fst q) (snd q)) (combine (fst p) (snd p))) (combine x y)) =
  map (fun q => op (fst q) (snd q)) (combine (concat x) (concat y)).
Proof.
  revert y. induction x as [|a x IH]; intros [|b y] L Hx Hy; try discriminate L; [reflexivity|].
  cbn [combine map concat fst snd]. rewrite IH.
  - assert (E : List.length a = List.length b) by (rewrite (Hx a), (Hy b); [reflexivity|left; reflexivity|left; reflexivity]).
    clear -E. revert b E. induction a as [|u a IH]; intros [|v b] E; try discriminate E; [reflexivity|].
    cbn [app combine map fst snd]. f_equal. apply IH. injection E as E. exact E.
  - injection L as L. exact L.
  - intros r Hr; apply Hx; right; exact Hr.
  - intros r Hr; apply Hy; right; exact Hr.
Qed.
Lemma nth_combine_op (op : R -> R -> R) x y c : (c < List.length x)%nat -> List.length x = List.length y ->
  nth c (map (fun q => op (fst q) (snd q)) (combine x y)) 0 = op (nth c x 0) (nth c y 0).
Proof.
  intros Hc L. rewrite (nth_map' _ _ _ (0, 0)) by (rewrite combine_length; lia).
  rewrite combine_nth by exact L. reflexivity.
Qed.

Lemma bc2_data (op : R -> R -> R) n m x y : shape n m x -> shape n m y ->
  exists z, bc2 op x y = Ok z /\ shape n m z /\
    forall c, (c < n * m)%nat -> nth c (concat z) 0 = op (nth c (concat x) 0) (nth c (concat y) 0).
Proof.
  intros Hx Hy. unfold bc2.
  assert (L : List.length x = List.length y) by (rewrite (proj1 Hx), (proj1 Hy); reflexivity).
  rewrite bc_same by exact L.
  exists (map (fun p => map (fun q => op (fst q) (snd q)) (combine (fst p) (snd p))) (combine x y)). split; [|split; [split|]].
  - rewrite <- mapM_ok. apply mapM_ext. intros [a b] H. cbn [fst snd].
    rewrite bc_same; [apply mapM_ok|].
    rewrite (proj2 Hx a), (proj2 Hy b); [reflexivity|eapply in_combine_r, H|eapply in_combine_l, H].
  - rewrite map_length, combine_length, (proj1 Hx), (proj1 Hy). apply Nat.min_id.
  - intros r Hr. apply in_map_iff in Hr. destruct Hr as ([a b] & <- & H). cbn [fst snd].
    rewrite map_length, combine_length, (proj2 Hx a), (proj2 Hy b); [apply Nat.min_id|eapply in_combine_r, H|eapply in_combine_l, H].
  - intros c Hc. rewrite (rows_concat op m) by (try exact L; try apply Hx; try apply Hy).
    apply nth_combine_op; rewrite ?(concat_len n m _ Hx), ?(concat_len n m _ Hy); auto.
Qed.

Lemma bc2_right (op : R -> R -> R) x b : bc2 op x [[b]] = Ok (map (map (fun u => op u b)) x).
Proof.
  unfold bc2. rewrite bc_right, <- mapM_ok. apply mapM_ext. intros a _. rewrite bc_right. apply mapM_ok.
Qed.
Lemma bc2_left (op : R -> R -> R) a y : bc2 op [[a]] y = Ok (map (map (op a)) y).
Proof.
  unfold bc2. rewrite bc_left, <- mapM_ok. apply mapM_ext. intros b _. rewrite bc_left. apply mapM_ok.
Qed.

(** ** evaluation of harmless expressions *)
Section Run.
Variable ufunc : string -> R -> R.
Variables (fitted : list (string * list R)) (aux : list (string * list (list R))) (grp : string -> nat -> nat).
Variables n m : nat.
Hypothesis Hrect : rectangular n m aux.
Hypothesis Hgrp : forall s l c, In (s, l) fitted -> (grp s c < List.length l)%nat.

Let obs := at_obs fitted aux grp.
Definition means (k : kind) (v : pv) (w : nat -> R) : Prop :=
  match k, v with
  | Number, Int z => forall c, (c < n * m)%nat -> w c = IZR z
  | Number, Flt r => forall c, (c < n * m)%nat -> w c = r
  | Data, Ar2 l => shape n m l /\ forall c, (c < n * m)%nat -> nth c (concat l) 0 = w c
  | Single_list, Lst [x] => forall c, (c < n * m)%nat -> w c = x
  | Single_array, Ar1 [x] => forall c, (c < n * m)%nat -> w c = x
  | _, _ => False
  end.

Lemma means_ext k v w w' : (forall c, (c < n * m)%nat -> w c = w' c) -> means k v w -> means k v w'.
Proof.
  intros E. destruct k, v as [z|r|[|x [|y l]]|[|x [|y l]]|l]; cbn; auto; try (intros H c Hc; rewrite <- E by exact Hc; apply H, Hc).
  intros [S H]. split; [exact S|]. intros c Hc. rewrite <- E by exact Hc. apply H, Hc.
Qed.

Ltac mv := match goal with
  | v : pv |- _ => destruct v as [?|?|[|? [|? ?]]|[|? [|? ?]]|?]
  end.

Lemma arith_means (op : R -> R -> R) k1 k2 k v1 v2 w1 w2 : kind2 k1 k2 = Some k ->
  means k1 v1 w1 -> means k2 v2 w2 ->
  exists v, arith op v1 v2 = Ok v /\ means k v (fun c => op (w1 c) (w2 c)).
Proof.
  intros Hk H1 H2.
  destruct k1, k2; try discriminate Hk; injection Hk as <-;
    destruct v1 as [z1|r1|[|x1 [|y1 l1]]|[|x1 [|y1 l1]]|l1]; try contradiction;
    destruct v2 as [z2|r2|[|x2 [|y2 l2]]|[|x2 [|y2 l2]]|l2]; try contradiction; cbn [means] in H1, H2; cbn [arith].
  all: try (eexists; split; [reflexivity|]; cbn [means]; intros c Hc; rewrite H1, H2 by exact Hc; reflexivity).
  all: try (destruct H1 as [S1 H1]); try (destruct H2 as [S2 H2]); rewrite ?bc2_right, ?bc2_left; cbn [bind].
  all: try (eexists; split; [reflexivity|]; cbn [means];
            match goal with |- shape _ _ (map (map ?f) ?l) /\ _ => destruct (map_map_shape f n m l) as [S' E']; [assumption|] end;
            split; [exact S'|]; intros c Hc; rewrite E' by exact Hc; rewrite ?H1, ?H2 by exact Hc; reflexivity).
  destruct (bc2_data op n m l1 l2 S1 S2) as (z & E & S & H). rewrite E. eexists; split; [reflexivity|].
  cbn [means]. split; [exact S|]. intros c Hc. rewrite H, H1, H2 by exact Hc. reflexivity.
Qed.

Lemma dget_In {V} s (d : list (string * V)) v : dget string_dec s d = Some v -> In (s, v) d.
Proof.
  induction d as [|[k w] d IH]; cbn; [discriminate|]. destruct (string_dec s k) as [->|N].
  - intros E. injection E as ->. left; reflexivity.
  - intros E. right. apply IH, E.
Qed.

Lemma run_means e k : kind_of (classify fitted aux) e = Some k ->
  exists v, run ufunc (call_env fitted aux) e = Ok v /\ means k v (fun c => value ufunc (obs c) e).
Proof.
  revert k. induction e as [z|r|s|a IHa b IHb|a IHa b IHb|a IHa b IHb|a IHa b IHb|a IHa|a IHa p|f a IHa]; intros k Hk; cbn [run kind_of value] in *.
  - injection Hk as <-. eexists; split; [reflexivity|]. cbn. reflexivity.
  - injection Hk as <-. eexists; split; [reflexivity|]. cbn. reflexivity.
  - unfold classify in Hk. unfold call_env, obs, at_obs.
    destruct (dget string_dec s fitted) as [[|x [|y l]]|] eqn:E; try discriminate Hk.
    + injection Hk as <-. eexists; split; [reflexivity|]. cbn. intros c _.
      specialize (Hgrp s [x] c (dget_In _ _ _ E)). cbn in Hgrp. destruct (grp s c); [reflexivity|lia].
    + destruct (dget string_dec s aux) as [a|] eqn:Ea; [|discriminate Hk]. injection Hk as <-.
      eexists; split; [reflexivity|]. cbn. split; [|reflexivity]. apply (Hrect s), dget_In, Ea.
  - destruct (kind_of _ a) as [ka|]; [|discriminate Hk]. destruct (kind_of _ b) as [kb|]; [|discriminate Hk].
    destruct (IHa ka eq_refl) as (va & Ra & Ma). destruct (IHb kb eq_refl) as (vb & Rb & Mb). rewrite Ra, Rb. cbn [bind].
    destruct (arith_means Rplus ka kb k va vb _ _ Hk Ma Mb) as (v & E & M).
    assert (D : (exists x y, va = Int x /\ vb = Int y) \/ padd va vb = arith Rplus va vb).
    { destruct va, vb; eauto 6. destruct ka, kb; try contradiction; discriminate Hk. }
    destruct D as [(x & y & -> & ->)| ->]; [|exists v; auto].
    exists (Int (x + y)). split; [reflexivity|]. destruct ka, kb; try contradiction. injection Hk as <-. cbn in *.
    intros c Hc. rewrite Ma, Mb, plus_IZR by exact Hc. reflexivity.
  - destruct (kind_of _ a) as [ka|]; [|discriminate Hk]. destruct (kind_of _ b) as [kb|]; [|discriminate Hk].
    destruct (IHa ka eq_refl) as (va & Ra & Ma). destruct (IHb kb eq_refl) as (vb & Rb & Mb). rewrite Ra, Rb. cbn [bind].
    destruct (arith_means Rminus ka kb k va vb _ _ Hk Ma Mb) as (v & E & M).
    assert (D : (exists x y, va = Int x /\ vb = Int y) \/ psub va vb = arith Rminus va vb) by (destruct va, vb; eauto 6).
    destruct D as [(x & y & -> & ->)| ->]; [|exists v; auto].
    exists (Int (x - y)). split; [reflexivity|]. destruct ka, kb; try contradiction. injection Hk as <-. cbn in *.
    intros c Hc. rewrite Ma, Mb, minus_IZR by exact Hc. reflexivity.
  - destruct (kind_of _ a) as [ka|]; [|discriminate Hk]. destruct (kind_of _ b) as [kb|]; [|discriminate Hk].
    destruct (IHa ka eq_refl) as (va & Ra & Ma). destruct (IHb kb eq_refl) as (vb & Rb & Mb). rewrite Ra, Rb. cbn [bind].
    destruct (arith_means Rmult ka kb k va vb _ _ Hk Ma Mb) as (v & E & M).
    assert (D : (exists x y, va = Int x /\ vb = Int y) \/ pmul va vb = arith Rmult va vb).
    { destruct va, vb; eauto 6; destruct ka, kb; try contradiction; discriminate Hk. }
    destruct D as [(x & y & -> & ->)| ->]; [|exists v; auto].
    exists (Int (x * y)). split; [reflexivity|]. destruct ka, kb; try contradiction. injection Hk as <-. cbn in *.
    intros c Hc. rewrite Ma, Mb, mult_IZR by exact Hc. reflexivity.
  - destruct (kind_of _ a) as [ka|]; [|discriminate Hk]. destruct (kind_of _ b) as [kb|]; [|discriminate Hk].
    destruct (IHa ka eq_refl) as (va & Ra & Ma). destruct (IHb kb eq_refl) as (vb & Rb & Mb). rewrite Ra, Rb. cbn [bind].
    apply (arith_means Rdiv ka kb k va vb _ _ Hk Ma Mb).
  - destruct (kind_of _ a) as [ka|]; [|discriminate Hk].
    destruct (IHa ka eq_refl) as (va & Ra & Ma). rewrite Ra. cbn [bind].
    destruct ka; try discriminate Hk; injection Hk as <-; destruct va as [z|r|[|x [|y l]]|[|x [|y l]]|l]; try contradiction; cbn in Ma; cbn [pneg elementwise map].
    + exists (Int (- z)). split; [reflexivity|]. cbn. intros c Hc. rewrite Ma, opp_IZR by exact Hc. reflexivity.
    + eexists; split; [reflexivity|]. cbn. intros c Hc. rewrite Ma by exact Hc. reflexivity.
    + eexists; split; [reflexivity|]. destruct Ma as [S M]. destruct (map_map_shape Ropp n m l S) as [S' E'].
      cbn. split; [exact S'|]. intros c Hc. rewrite E', M by exact Hc. reflexivity.
    + eexists; split; [reflexivity|]. cbn. intros c Hc. rewrite Ma by exact Hc. reflexivity.
  - destruct (kind_of _ a) as [ka|]; [|discriminate Hk].
    destruct (IHa ka eq_refl) as (va & Ra & Ma). rewrite Ra. cbn [bind].
    destruct ka; try discriminate Hk; injection Hk as <-; destruct va as [z|r|[|x [|y l]]|[|x [|y l]]|l]; try contradiction; cbn in Ma; cbn [ppow elementwise map].
    + eexists; split; [reflexivity|]. cbn. intros c Hc. rewrite Ma by exact Hc. rewrite pow_IZR. reflexivity.
    + eexists; split; [reflexivity|]. cbn. intros c Hc. rewrite Ma by exact Hc. reflexivity.
    + eexists; split; [reflexivity|]. destruct Ma as [S M]. destruct (map_map_shape (fun r => r ^ p) n m l S) as [S' E'].
      cbn. split; [exact S'|]. intros c Hc. rewrite E', M by exact Hc. reflexivity.
    + eexists; split; [reflexivity|]. cbn. intros c Hc. rewrite Ma by exact Hc. reflexivity.
  - destruct (kind_of _ a) as [ka|]; [|discriminate Hk].
    destruct (IHa ka eq_refl) as (va & Ra & Ma). rewrite Ra. cbn [bind].
    destruct ka; injection Hk as <-; destruct va as [z|r|[|x [|y l]]|[|x [|y l]]|l]; try contradiction; cbn in Ma; cbn [elementwise map].
    1, 2, 4, 5: eexists; split; [reflexivity|]; cbn; intros c Hc; rewrite Ma by exact Hc; reflexivity.
    eexists; split; [reflexivity|]. destruct Ma as [S M]. destruct (map_map_shape (ufunc f) n m l S) as [S' E'].
    cbn. split; [exact S'|]. intros c Hc. rewrite E', M by exact Hc. reflexivity.
Qed.

Lemma times_inner_ok d outer : harmless fitted aux d -> List.length outer = (n * m)%nat ->
  times_inner ufunc fitted aux d outer =
  Ok (map (fun c => nth c outer 0 * value ufunc (obs c) d) (seq 0 (n * m))).
Proof.
  intros Hh L. unfold times_inner. rewrite L.
  assert (G : exists v f, run ufunc (call_env fitted aux) d = Ok v /\ flatten (n * m) v = Ok f /\
     forall c, (c < n * m)%nat -> f c = value ufunc (obs c) d).
  { destruct Hh as [Hk|Hk]; destruct (run_means d _ Hk) as (v & E & M); exists v; destruct v as [z|r|[|x [|y l]]|[|x [|y l]]|l]; try contradiction; cbn in M.
    - eexists; repeat split; [exact E|]. cbn. intros c Hc. rewrite M by exact Hc. reflexivity.
    - eexists; repeat split; [exact E|]. cbn. intros c Hc. rewrite M by exact Hc. reflexivity.
    - destruct M as [S M]. exists (fun c => nth c (concat l) 0). repeat split; [exact E| |exact M].
      cbn [flatten]. rewrite (concat_len n m l S), Nat.ltb_irrefl. reflexivity. }
  destruct G as (v & f & E & F & H). rewrite E. cbn [bind]. rewrite F. cbn [bind]. f_equal.
  apply map_ext_in. intros c Hc. apply in_seq in Hc. rewrite H by lia. reflexivity.
Qed.
End Run.
