(** Proofs about the lru caches *)
From Coq Require Import List Arith Bool String Lia.
From Verif Require Import Base Ses_Model Ses_Spec Lru_Model Lru_Spec.
Import ListNotations.
Local Open Scope list_scope.

Lemma NoDup_fst {A} (l r : list A) : NoDup (l ++ r) -> NoDup l.
Proof. induction l; cbn; [constructor|]. intros H. inversion H; subst. constructor; [|auto]. intros I. apply H2, in_or_app. now left. Qed.
(** ** one cache *)
Section One.
Context {A : Type}.
Variable n : nat.
Implicit Types c : lcache A.

Definition lkeys c := map fst c.

Lemma lfind_none c o : lfind c o = None <-> ~ In o (lkeys c).
Proof.
  induction c as [|[q x] c IH]; cbn; [tauto|]. destruct (Nat.eqb_spec q o) as [->|N]; [split; [discriminate|tauto]|]. rewrite IH. tauto.
Qed.
Lemma lfind_del_other c o q : q <> o -> lfind (ldel c o) q = lfind c q.
Proof.
  intros N. induction c as [|[k x] c IH]; cbn; [reflexivity|]. destruct (Nat.eqb_spec k o) as [->|M]; cbn.
  - destruct (Nat.eqb_spec o q); [congruence|exact IH].
  - destruct (Nat.eqb k q); [reflexivity|exact IH].
Qed.
Lemma lfind_hit_same c o x : lfind (lhit c o x) o = Some x.
Proof. cbn. now rewrite Nat.eqb_refl. Qed.
Lemma lfind_hit_other c o x q : q <> o -> lfind (lhit c o x) q = lfind c q.
Proof. intros N. cbn. destruct (Nat.eqb_spec o q); [congruence|]. now apply lfind_del_other. Qed.
Lemma lfind_miss_same c o x : 0 < n -> lfind (lmiss n c o x) o = Some x.
Proof. intros H. unfold lmiss. destruct n; [lia|]. cbn. now rewrite Nat.eqb_refl. Qed.
Lemma lfind_firstn c m q : lfind (firstn m c) q = if in_dec Nat.eq_dec q (firstn m (lkeys c)) then lfind c q else None.
Proof.
  revert m. induction c as [|[k x] c IH]; intros [|m]; cbn -[in_dec]; try (destruct (in_dec Nat.eq_dec q []) as [F|F]; [destruct F|reflexivity]).
  rewrite IH. fold (lkeys c). destruct (Nat.eqb_spec k q) as [->|N].
  - destruct (in_dec Nat.eq_dec q (q :: firstn m (lkeys c))) as [|C]; [reflexivity|]. exfalso. apply C. now left.
  - destruct (in_dec Nat.eq_dec q (firstn m (lkeys c))) as [I|I], (in_dec Nat.eq_dec q (k :: firstn m (lkeys c))) as [J|J]; try reflexivity.
    + exfalso. apply J. now right.
    + exfalso. destruct J as [->|J]; tauto.
Qed.

(** the keys after an access of [o] *)
Definition kstep (l : list nat) (o : nat) : list nat :=
  if in_dec Nat.eq_dec o l then o :: remove Nat.eq_dec o l else firstn n (o :: l).

Lemma keys_del c o : lkeys (ldel c o) = remove Nat.eq_dec o (lkeys c).
Proof.
  induction c as [|[k x] c IH]; cbn; [reflexivity|]. destruct (Nat.eq_dec o k) as [->|N].
  - rewrite Nat.eqb_refl. exact IH.
  - destruct (Nat.eqb_spec k o); [congruence|]. cbn. now f_equal.
Qed.
Lemma keys_hit c o x : In o (lkeys c) -> lkeys (lhit c o x) = kstep (lkeys c) o.
Proof. intros H. unfold kstep. destruct (in_dec _ _ _); [|tauto]. cbn. f_equal. apply keys_del. Qed.
Lemma keys_miss c o x : ~ In o (lkeys c) -> lkeys (lmiss n c o x) = kstep (lkeys c) o.
Proof. intros H. unfold kstep. destruct (in_dec _ _ _); [tauto|]. unfold lmiss, lkeys. now rewrite <- firstn_map. Qed.
(** what remains for others *)
Lemma lfind_miss_other c o x q : q <> o -> ~ In o (lkeys c) -> lfind (lmiss n c o x) q = if in_dec Nat.eq_dec q (kstep (lkeys c) o) then lfind c q else None.
Proof.
  intros N H. unfold lmiss. rewrite lfind_firstn. cbn [lkeys map fst lfind]. unfold kstep. destruct (in_dec Nat.eq_dec o (lkeys c)); [tauto|].
  destruct (Nat.eqb_spec o q); [congruence|reflexivity].
Qed.
Lemma lfind_hit_other' c o x q : q <> o -> In o (lkeys c) -> lfind (lhit c o x) q = if in_dec Nat.eq_dec q (kstep (lkeys c) o) then lfind c q else None.
Proof.
  intros N H. rewrite lfind_hit_other by exact N. destruct (in_dec Nat.eq_dec q (kstep (lkeys c) o)) as [I|I]; [reflexivity|].
  apply lfind_none. intros J. apply I. unfold kstep. destruct (in_dec _ _ _); [|tauto]. right. now apply in_in_remove.
Qed.
Lemma in_kstep l o : 0 < n -> In o (kstep l o).
Proof. intros H. unfold kstep. destruct (in_dec _ _ _); [now left|]. destruct n; [lia|]. now left. Qed.
Lemma kstep_idem l o : 0 < n -> NoDup l -> kstep (kstep l o) o = kstep l o.
Proof.
  intros H D. pose proof (in_kstep l o H) as I. unfold kstep at 1. destruct (in_dec _ _ _); [|tauto]. clear I i.
  assert (R : forall l, ~ In o l -> remove Nat.eq_dec o l = l) by (intros; now apply notin_remove).
  unfold kstep. destruct (in_dec Nat.eq_dec o l) as [J|J].
  - cbn [remove]. destruct (Nat.eq_dec o o); [|congruence]. f_equal. apply R, remove_In.
  - destruct n; [lia|]. cbn [firstn remove]. destruct (Nat.eq_dec o o); [|congruence]. f_equal. apply R. intros K. apply J.
    rewrite <- (firstn_skipn n0 l). apply in_or_app. now left.
Qed.
Lemma NoDup_kstep l o : NoDup l -> NoDup (kstep l o).
Proof.
  intros D. unfold kstep. destruct (in_dec _ _ _) as [J|J].
  - constructor; [apply remove_In|]. clear J. induction D; cbn; [constructor|]. destruct (Nat.eq_dec o x); [assumption|]. constructor; [|assumption].
    intros I. apply in_remove in I. tauto.
  - assert (NoDup (o :: l)) by now constructor. rewrite <- (firstn_skipn n (o :: l)) in H. now apply NoDup_fst in H.
Qed.
(** nothing is lost while there is room *)
Lemma kstep_room l o q : List.length l < n -> In q l -> In q (kstep l o).
Proof.
  intros H I. unfold kstep. destruct (in_dec _ _ _) as [J|J].
  - destruct (Nat.eq_dec q o) as [->|N]; [now left|]. right. now apply in_in_remove.
  - rewrite firstn_all2 by (cbn; lia). now right.
Qed.
Lemma kstep_room' l o q : In o l -> In q l -> In q (kstep l o).
Proof.
  intros J I. unfold kstep. destruct (in_dec _ _ _) as [J'|J']; [|tauto].
  destruct (Nat.eq_dec q o) as [->|N]; [now left|]. right. now apply in_in_remove.
Qed.
Lemma kstep_incl l o q : In q (kstep l o) -> q = o \/ In q l.
Proof.
  unfold kstep. destruct (in_dec _ _ _) as [J|J].
  - intros [->|I]; [tauto|]. apply in_remove in I. tauto.
  - intros I. assert (K : In q (o :: l)) by (rewrite <- (firstn_skipn n (o :: l)); apply in_or_app; now left). destruct K; [left; congruence|tauto].
Qed.
End One.

(** ** the session *)
Section Two.
Context {Val : Type}.
Variable n : nat.
Hypothesis Hn : 0 < n.
Implicit Types s : lstate Val.

(** the entries of object [q] are right *)
Definition okq s q : Prop :=
  (forall g, lfind (l_O s) q = Some g -> g = fst (l_def s q)) /\
  (forall g, lfind (l_T s) q = Some g -> g = snd (l_def s q)) /\
  (forall x, lfind (l_V s) q = Some x ->
     (lfind (l_O s) q = None -> fst x = fst (l_def s q)) /\ (lfind (l_T s) q = None -> snd x = snd (l_def s q)) /\
     (forall v, fst (l_def s q) = Num v -> fst x = Num v) /\ (forall v, snd (l_def s q) = Num v -> snd x = Num v)).

(** an access of entries of [o]: definitions unchanged; each cache of the three accessed or not;
    entries of others as left by the accesses *)
Definition acc {A} (c c' : lcache A) (o : nat) : Prop :=
  (c' = c) \/ (lkeys c' = kstep n (lkeys c) o /\ (forall q, q <> o -> lfind c' q = if in_dec Nat.eq_dec q (kstep n (lkeys c) o) then lfind c q else None)).
Definition acc1 {A} (c c' : lcache A) (o : nat) : Prop :=
  lkeys c' = kstep n (lkeys c) o /\ (forall q, q <> o -> lfind c' q = if in_dec Nat.eq_dec q (kstep n (lkeys c) o) then lfind c q else None).

Lemma acc1_hit {A} (c : lcache A) o x y : lfind c o = Some y -> acc1 c (lhit c o x) o.
Proof.
  intros H. assert (I : In o (lkeys c)). { destruct (in_dec Nat.eq_dec o (lkeys c)) as [|N]; [assumption|]. apply lfind_none in N. congruence. }
  split; [now apply keys_hit|]. intros q Q. now apply lfind_hit_other'.
Qed.
Lemma acc1_miss {A} (c : lcache A) o x : lfind c o = None -> acc1 c (lmiss n c o x) o.
Proof. intros H. apply lfind_none in H. split; [now apply keys_miss|]. intros q Q. now apply lfind_miss_other. Qed.
Lemma acc1_trans {A} (c c' c'' : lcache A) o : NoDup (lkeys c) -> acc1 c c' o -> acc1 c' c'' o -> acc1 c c'' o.
Proof.
  intros D [K F] [K' F']. rewrite K, (kstep_idem n _ _ Hn D) in *. split; [exact K'|]. intros q Q. rewrite (F' q Q), (F q Q). now destruct (in_dec _ _ _).
Qed.
Lemma acc_of {A} (c c' : lcache A) o : acc1 c c' o -> acc c c' o.
Proof. now right. Qed.
Lemma acc_trans {A} (c c' c'' : lcache A) o : NoDup (lkeys c) -> acc c c' o -> acc c' c'' o -> acc c c'' o.
Proof.
  intros D [->|H] [->|H']; [now left|now right|now right|]. right. now apply (acc1_trans c c' c'').
Qed.
Lemma acc1_acc {A} (c c' c'' : lcache A) o : NoDup (lkeys c) -> acc1 c c' o -> acc c' c'' o -> acc1 c c'' o.
Proof. intros D H [->|H']; [exact H|now apply (acc1_trans c c' c'')]. Qed.
Lemma acc_acc1 {A} (c c' c'' : lcache A) o : NoDup (lkeys c) -> acc c c' o -> acc1 c' c'' o -> acc1 c c'' o.
Proof. intros D [->|H] H'; [exact H'|now apply (acc1_trans c c' c'')]. Qed.
Lemma acc_NoDup {A} (c c' : lcache A) o : acc c c' o -> NoDup (lkeys c) -> NoDup (lkeys c').
Proof. intros [->|[K _]] D; [exact D|]. rewrite K. now apply NoDup_kstep. Qed.

Definition nd s : Prop := NoDup (lkeys (l_V s)) /\ NoDup (lkeys (l_O s)) /\ NoDup (lkeys (l_T s)).
(** all three caches: accessed at [o] or untouched *)
Definition sacc s s' o : Prop := l_def s' = l_def s /\ acc (l_V s) (l_V s') o /\ acc (l_O s) (l_O s') o /\ acc (l_T s) (l_T s') o.
Lemma sacc_refl s o : sacc s s o.
Proof. repeat split; now left. Qed.
Lemma sacc_nd s s' o : sacc s s' o -> nd s -> nd s'.
Proof. intros (_ & A & B & C) (D & E & F). repeat split; eapply acc_NoDup; eassumption. Qed.
Lemma sacc_trans s s' s'' o : nd s -> sacc s s' o -> sacc s' s'' o -> sacc s s'' o.
Proof. intros (D & E & F) (X & A & B & C) (X' & A' & B' & C'). split; [congruence|]. repeat split; eapply acc_trans; eassumption. Qed.

(** accesses *)
Lemma get_V_spec s o : okq s o -> let '(x, s') := get_V n s o in
  sacc s s' o /\ acc1 (l_V s) (l_V s') o /\ okq s' o /\ lfind (l_V s') o = Some x /\ l_O s' = l_O s /\ l_T s' = l_T s.
Proof.
  intros (O1 & O2 & O3). unfold get_V. destruct (lfind (l_V s) o) as [x|] eqn:E.
  - assert (H : acc1 (l_V s) (lhit (l_V s) o x) o) by now apply (acc1_hit _ o x x).
    split; [repeat split; cbn; (now left) || (now right)|]. split; [exact H|]. cbn. rewrite Nat.eqb_refl. split; [|auto].
    split; [exact O1|split; [exact O2|]]. cbn. rewrite Nat.eqb_refl. intros y Y. injection Y as <-. now apply O3.
  - assert (H : acc1 (l_V s) (lmiss n (l_V s) o (l_def s o)) o) by now apply acc1_miss.
    split; [repeat split; cbn; (now left) || (now right)|]. split; [exact H|]. cbn [l_V l_O l_T].
    split; [|split; [now apply lfind_miss_same|auto]].
    split; [exact O1|split; [exact O2|]]. cbn [l_V l_O l_T l_def]. rewrite lfind_miss_same by exact Hn. intros y Y. injection Y as <-. auto.
Qed.
Lemma get_O_spec s o : nd s -> okq s o -> let '(g, s') := get_O n s o in
  sacc s s' o /\ acc1 (l_O s) (l_O s') o /\ okq s' o /\ g = fst (l_def s o) /\ lfind (l_O s') o = Some g /\ (forall x, lfind (l_V s) o = Some x -> lfind (l_V s') o = Some x) /\ (forall g, lfind (l_T s) o = Some g -> lfind (l_T s') o = Some g).
Proof.
  intros D Ok. unfold get_O. destruct (lfind (l_O s) o) as [g|] eqn:E.
  - destruct Ok as (O1 & O2 & O3). assert (H : acc1 (l_O s) (lhit (l_O s) o g) o) by now apply (acc1_hit _ o g g).
    split; [repeat split; cbn; (now left) || (now right)|]. split; [exact H|]. cbn [l_O l_V l_T].
    split; [|split; [now apply O1|split; [apply lfind_hit_same|auto]]].
    split; [cbn [l_O l_def]; rewrite lfind_hit_same; intros y Y; injection Y as <-; now apply O1|split; [exact O2|]]. cbn [l_O l_V l_T l_def].
    intros x X. rewrite lfind_hit_same. destruct (O3 x X) as (A & B & C). split; [discriminate|]. auto.
  - pose proof (get_V_spec s o Ok) as G. destruct (get_V n s o) as [x s'] eqn:Ev. destruct G as (S1 & S2 & (O1 & O2 & O3) & F & EO & ET).
    rewrite EO in *. destruct (O3 x F) as (A & B & C1 & C2). specialize (A E). destruct S1 as (X & SV & SO & ST).
    assert (H : acc1 (l_O s) (lmiss n (l_O s) o (fst x)) o) by now apply acc1_miss.
    split; [split; [exact X|]; cbn [l_O l_V l_T]; rewrite ET in *; repeat split; [now right|now right|now left]|].
    split; [exact H|]. cbn [l_O l_V l_T]. split; [|split; [congruence|split; [now apply lfind_miss_same|]]].
    + split; [|split; [exact O2|]].
      * cbn [l_O l_def]. rewrite lfind_miss_same by exact Hn. intros y Y. injection Y as <-. exact A.
      * cbn [l_O l_V l_T l_def]. rewrite F. intros y Y. injection Y as <-. rewrite lfind_miss_same by exact Hn. split; [discriminate|]. auto.
    + split; [|intros g; rewrite ET; auto]. intros y Y. unfold get_V in Ev. rewrite Y in Ev. injection Ev as <- <-. exact F.
Qed.
Lemma get_T_spec s o : nd s -> okq s o -> let '(g, s') := get_T n s o in
  sacc s s' o /\ acc1 (l_T s) (l_T s') o /\ okq s' o /\ g = snd (l_def s o) /\ lfind (l_T s') o = Some g /\ (forall x, lfind (l_V s) o = Some x -> lfind (l_V s') o = Some x) /\ (forall g, lfind (l_O s) o = Some g -> lfind (l_O s') o = Some g).
Proof.
  intros D Ok. unfold get_T. destruct (lfind (l_T s) o) as [g|] eqn:E.
  - destruct Ok as (O1 & O2 & O3). assert (H : acc1 (l_T s) (lhit (l_T s) o g) o) by now apply (acc1_hit _ o g g).
    split; [repeat split; cbn; (now left) || (now right)|]. split; [exact H|]. cbn [l_O l_V l_T].
    split; [|split; [now apply O2|split; [apply lfind_hit_same|auto]]].
    split; [exact O1|split; [cbn [l_T l_def]; rewrite lfind_hit_same; intros y Y; injection Y as <-; now apply O2|]]. cbn [l_O l_V l_T l_def].
    intros x X. rewrite lfind_hit_same. destruct (O3 x X) as (A & B & C). split; [auto|]. split; [discriminate|]. auto.
  - pose proof (get_V_spec s o Ok) as G. destruct (get_V n s o) as [x s'] eqn:Ev. destruct G as (S1 & S2 & (O1 & O2 & O3) & F & EO & ET).
    rewrite ET in *. destruct (O3 x F) as (A & B & C1 & C2). specialize (B E). destruct S1 as (X & SV & SO & ST).
    assert (H : acc1 (l_T s) (lmiss n (l_T s) o (snd x)) o) by now apply acc1_miss.
    split; [split; [exact X|]; cbn [l_O l_V l_T]; rewrite EO in *; repeat split; [now right|now left|now right]|].
    split; [exact H|]. cbn [l_O l_V l_T]. split; [|split; [congruence|split; [now apply lfind_miss_same|]]].
    + split; [exact O1|split].
      * cbn [l_T l_def]. rewrite lfind_miss_same by exact Hn. intros y Y. injection Y as <-. exact B.
      * cbn [l_O l_V l_T l_def]. rewrite F. intros y Y. injection Y as <-. rewrite lfind_miss_same by exact Hn. split; [auto|]. split; [discriminate|]. auto.
    + split; [|intros g; rewrite EO; auto]. intros y Y. unfold get_V in Ev. rewrite Y in Ev. injection Ev as <- <-. exact F.
Qed.
Lemma keys_write (c : lcache (pval Val * pval Val)) o x : lkeys (map (fun e => if Nat.eqb (fst e) o then (fst e, x) else e) c) = lkeys c.
Proof. unfold lkeys. rewrite map_map. apply map_ext. intros [q y]. cbn. now destruct (Nat.eqb q o). Qed.
Lemma find_write (c : lcache (pval Val * pval Val)) o x q :
  lfind (map (fun e => if Nat.eqb (fst e) o then (fst e, x) else e) c) q = if Nat.eqb q o then match lfind c o with Some _ => Some x | None => None end else lfind c q.
Proof.
  induction c as [|[k y] c IH]; cbn; [now destruct (Nat.eqb q o)|].
  destruct (Nat.eqb_spec k o) as [->|N]; cbn.
  - rewrite IH. rewrite (Nat.eqb_sym o q). destruct (Nat.eqb q o); reflexivity.
  - rewrite IH. destruct (Nat.eqb_spec k q) as [->|M]; [|reflexivity]. destruct (Nat.eqb_spec q o); [congruence|reflexivity].
Qed.
(** evaluation at [o]: the result and what happens to the caches; [acc1] of all three if it succeeds *)
Lemma acc1_write (c c' : lcache (pval Val * pval Val)) o x : acc1 c c' o -> acc1 c (map (fun e => if Nat.eqb (fst e) o then (fst e, x) else e) c') o.
Proof. intros [K F]. split; [now rewrite keys_write|]. intros q Q. rewrite find_write. destruct (Nat.eqb_spec q o); [congruence|]. now apply F. Qed.

Lemma new_value_is name ps d p : (forall v, d = Num v -> dget string_dec name ps = None /\ p = Num v) -> new_value name ps d p = value_of (Val := Val) name ps d.
Proof.
  intros H. destruct d as [v|ks f]; [|reflexivity]. destruct (H v eq_refl) as [E ->]. unfold new_value, value_of, lookup. now rewrite E.
Qed.
Lemma value_Num name ps (d : pval Val) a : (forall v, d = Num v -> dget string_dec name ps = None) -> value_of name ps d = Ok a -> forall v, d = Num v -> a = Num v.
Proof. intros H E v ->. cbn in E. rewrite (H v eq_refl) in E. congruence. Qed.

Lemma lset_model_spec s o : nd s -> okq s o -> sacc s (lset_model n s o) o /\ okq (lset_model n s o) o.
Proof.
  intros D Ok. unfold lset_model. destruct (lfind (l_S s) o).
  - split; [repeat split; now left|exact Ok].
  - pose proof (get_V_spec s o Ok) as G. destruct (get_V n s o) as [x s1]. destruct G as (S1 & _ & O1 & _).
    assert (D1 := sacc_nd _ _ _ S1 D). pose proof (get_T_spec s1 o D1 O1) as G. destruct (get_T n s1 o) as [g s2]. destruct G as (S2 & _ & O2 & _).
    assert (D2 := sacc_nd _ _ _ S2 D1). pose proof (get_O_spec s2 o D2 O2) as G. destruct (get_O n s2 o) as [h s3]. destruct G as (S3 & _ & O3 & _).
    assert (T : sacc s s3 o) by (eapply sacc_trans; [exact D|exact S1|eapply sacc_trans; eassumption]).
    split; [exact T|exact O3].
Qed.

Lemma leval_spec sm s o ps : nd s -> okq s o -> lrespects (l_def s o) ps ->
  let '(r, s') := leval n sm s o ps in
  r = lexpected (l_def s o) ps /\ sacc s s' o /\ okq s' o /\
  ((exists y, r = Ok y) -> acc1 (l_V s) (l_V s') o /\ acc1 (l_O s) (l_O s') o /\ acc1 (l_T s) (l_T s') o).
Proof.
  intros D Ok [R1 R2]. unfold leval.
  set (s1 := if sm then lset_model n s o else s).
  assert (H1 : sacc s s1 o /\ okq s1 o). { subst s1. destruct sm; [now apply lset_model_spec|split; [apply sacc_refl|exact Ok]]. }
  clearbody s1. destruct H1 as [S1 O1]. assert (D1 := sacc_nd _ _ _ S1 D).
  pose proof (get_V_spec s1 o O1) as G. destruct (get_V n s1 o) as [x s2]. destruct G as (S2 & A2 & O2 & F2 & EO & ET).
  assert (D2 := sacc_nd _ _ _ S2 D1).
  pose proof (get_O_spec s2 o D2 O2) as G. destruct (get_O n s2 o) as [g s3]. destruct G as (S3 & A3 & O3 & Eg & FO & FV & _).
  assert (D3 := sacc_nd _ _ _ S3 D2). specialize (FV x F2).
  assert (T3 : sacc s s3 o) by (eapply sacc_trans; [exact D|exact S1|eapply sacc_trans; eassumption]).
  assert (E2 : l_def s2 = l_def s) by (destruct S1 as [E1 _], S2 as [E2 _]; congruence).
  assert (E3 : l_def s3 = l_def s) by (destruct T3 as [E1 _]; congruence).
  destruct O3 as (P1 & P2 & P3). destruct (P3 x FV) as (Q1 & Q2 & Q3 & Q4). rewrite E3 in P1, P2, Q1, Q2, Q3, Q4. rewrite E2 in Eg. subst g.
  rewrite (new_value_is "omega" ps (fst (l_def s o)) (fst x)) by (intros v Hv; split; [apply (R1 v Hv)|apply (Q3 v Hv)]).
  unfold lexpected. destruct (value_of "omega" ps (fst (l_def s o))) as [a|e] eqn:Ea; cbn [bind].
  2: { split; [reflexivity|]. split; [exact T3|]. split; [|intros [y Y]; discriminate]. split; [now rewrite E3|split; [now rewrite E3|exact P3]]. }
  set (s4 := lwrite s3 o (a, snd x)).
  assert (A4 : acc1 (l_V s) (l_V s4) o).
  { apply acc1_write. destruct S1 as (_ & SV & _), S3 as (_ & SV' & _), D as (D & _), D1 as (D1 & _).
    eapply acc_acc1; [exact D|exact SV|]. eapply acc1_acc; [exact D1|exact A2|exact SV']. }
  assert (B4 : acc1 (l_O s) (l_O s4) o).
  { cbn. destruct S1 as (_ & _ & SO & _), S2 as (_ & _ & SO' & _), D as (_ & D & _), D1 as (_ & D1 & _).
    eapply acc_acc1; [exact D|exact SO|]. eapply acc_acc1; [exact D1|exact SO'|exact A3]. }
  assert (S4 : sacc s s4 o). { split; [exact E3|]. split; [now right|]. split; [now right|]. cbn. apply T3. }
  assert (N1 : forall v, fst (l_def s o) = Num v -> a = Num v) by (apply (value_Num _ _ _ _ R1 Ea)).
  assert (F4 : lfind (l_V s4) o = Some (a, snd x)). { cbn. now rewrite find_write, Nat.eqb_refl, FV. }
  assert (O4 : okq s4 o).
  { split; [cbn; rewrite E3; exact P1|split; [cbn; rewrite E3; exact P2|]]. rewrite F4. intros y Y. injection Y as <-. cbn [fst snd]. change (l_def s4) with (l_def s3). rewrite E3.
    split; [cbn; congruence|]. split; [exact Q2|]. split; [exact N1|exact Q4]. }
  assert (D4 := sacc_nd _ _ _ S4 D). clearbody s4.
  pose proof (get_T_spec s4 o D4 O4) as G. destruct (get_T n s4 o) as [g s5]. destruct G as (S5 & A5 & O5 & Eg & FT & FV5 & FO5).
  specialize (FV5 _ F4). assert (E4 : l_def s4 = l_def s) by apply S4. rewrite E4 in Eg. subst g.
  assert (T5 : sacc s s5 o) by (eapply sacc_trans; eassumption). assert (E5 : l_def s5 = l_def s) by apply T5.
  destruct O5 as (U1 & U2 & U3). destruct (U3 _ FV5) as (V1 & V2 & V3 & V4). cbn [fst snd] in V1, V2, V3, V4. rewrite E5 in U1, U2, V1, V2, V3, V4.
  rewrite (new_value_is "tau" ps (snd (l_def s o)) (snd x)) by (intros v Hv; split; [apply (R2 v Hv)|apply (V4 v Hv)]).
  destruct (value_of "tau" ps (snd (l_def s o))) as [b|e] eqn:Eb; cbn [bind].
  2: { split; [reflexivity|]. split; [exact T5|]. split; [|intros [y Y]; discriminate]. split; [now rewrite E5|split; [now rewrite E5|rewrite E5, FV5; intros y Y; injection Y as <-; auto]]. }
  split; [reflexivity|].
  assert (A6 : acc1 (l_V s) (l_V (lwrite s5 o (a, b))) o).
  { apply acc1_write. destruct S5 as (_ & SV & _), D as (D & _). eapply acc1_acc; [exact D|exact A4|exact SV]. }
  assert (B6 : acc1 (l_O s) (l_O s5) o). { destruct S5 as (_ & _ & SO & _), D as (_ & D & _). eapply acc1_acc; [exact D|exact B4|exact SO]. }
  assert (C6 : acc1 (l_T s) (l_T s5) o). { destruct S4 as (_ & _ & _ & ST), D as (_ & _ & D). eapply acc_acc1; [exact D|exact ST|exact A5]. }
  split; [split; [exact E5|split; [now right|split; now right]]|].
  split; [|intros _; auto].
  split; [cbn; rewrite E5; exact U1|split; [cbn; rewrite E5; exact U2|]]. cbn [lwrite l_V l_O l_T l_def]. rewrite find_write, Nat.eqb_refl, FV5, E5.
  intros y Y. injection Y as <-. cbn [fst snd].
  assert (FO' : lfind (l_O s5) o <> None). { intros Z. apply lfind_none in Z. apply Z. destruct B6 as [K _]. rewrite K. now apply in_kstep. }
  assert (FT' : lfind (l_T s5) o <> None) by congruence.
  split; [tauto|]. split; [tauto|]. split; [exact N1|]. apply (value_Num _ _ _ _ R2 Eb).
Qed.

(** ** few objects: nothing is lost *)
Definition fewinv s (u : list nat) : Prop :=
  nd s /\ (forall q, okq s q) /\ incl (lkeys (l_V s)) u /\ incl (lkeys (l_O s)) u /\ incl (lkeys (l_T s)) u.
Lemma acc_keep {A} (c c' : lcache A) o u q : NoDup (lkeys c) -> incl (lkeys c) u -> distinct (o :: u) <= n -> acc c c' o -> q <> o -> lfind c' q = lfind c q.
Proof.
  intros D I L [->|[K F]] Q; [reflexivity|]. rewrite (F q Q). destruct (in_dec _ _ _) as [J|J]; [reflexivity|]. symmetry. apply lfind_none. intros X. apply J.
  destruct (in_dec Nat.eq_dec o (lkeys c)) as [Y|Y]; [now apply kstep_room'|]. apply kstep_room; [|exact X].
  assert (List.length (o :: lkeys c) <= n); [|cbn in *; lia]. apply Nat.le_trans with (2 := L). unfold distinct.
  apply NoDup_incl_length; [now constructor|]. intros z [->|Z]; apply nodup_In; [now left|right; now apply I].
Qed.
Lemma acc_incl {A} (c c' : lcache A) o u : acc c c' o -> incl (lkeys c) u -> incl (lkeys c') (o :: u).
Proof.
  intros [->|[K F]] I z Z; [right; now apply I|]. rewrite K in Z. apply kstep_incl in Z. destruct Z as [->|Z]; [now left|right; now apply I].
Qed.
Lemma few_acc s s' o u : fewinv s u -> distinct (o :: u) <= n -> sacc s s' o -> okq s' o -> fewinv s' (o :: u).
Proof.
  intros (D & Ok & I1 & I2 & I3) L S O. split; [now apply (sacc_nd s s' o)|]. destruct S as (E & A & B & C), D as (D1 & D2 & D3). split.
  - intros q. destruct (Nat.eq_dec q o) as [->|Q]; [exact O|]. unfold okq.
    rewrite (acc_keep _ _ o u q D1 I1 L A Q), (acc_keep _ _ o u q D2 I2 L B Q), (acc_keep _ _ o u q D3 I3 L C Q), E. apply Ok.
  - split; [|split]; eapply acc_incl; eassumption.
Qed.
(** ** successful evaluations only: entries are lost together *)
Definition sync s : Prop := nd s /\ (forall q, okq s q) /\ lkeys (l_O s) = lkeys (l_V s) /\ lkeys (l_T s) = lkeys (l_V s).
Lemma sync_acc s s' o : sync s -> l_def s' = l_def s -> acc1 (l_V s) (l_V s') o -> acc1 (l_O s) (l_O s') o -> acc1 (l_T s) (l_T s') o -> okq s' o -> sync s'.
Proof.
  intros (D & Ok & K1 & K2) E A B C O. split; [|split].
  - apply (sacc_nd s s' o); [|exact D]. split; [exact E|]. repeat split; now right.
  - intros q. destruct (Nat.eq_dec q o) as [->|Q]; [exact O|]. destruct A as [_ A], B as [_ B], C as [_ C].
    specialize (A q Q). specialize (B q Q). specialize (C q Q). rewrite K1 in B. rewrite K2 in C. specialize (Ok q). unfold okq in *. rewrite A, B, C, E.
    destruct (in_dec _ _ _); [exact Ok|]. repeat split; intros; discriminate.
  - destruct A as [A _], B as [B _], C as [C _]. rewrite A, B, C, K1, K2. auto.
Qed.
End Two.
