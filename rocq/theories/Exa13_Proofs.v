(** Lemmas for the exact condition on the names of the metric variables. *)
From Coq Require Import List Bool String Ascii Lia Arith.
From Verif Require Import Base Base_Proofs GF_Model GF_Proofs GF_Props Str_Model Str_Proofs Met_Model Met_Spec Met2_Proofs Exa13_Spec.
Import ListNotations.
Open Scope string_scope.

Lemma shared_iff s n : distinct_names s -> (shared s n <-> (2 <= List.length (sources_of s n))%nat).
Proof.
  intros HD. assert (N := sources_of_nodup s n HD). split.
  - intros (a & b & D & A & B). apply sources_of_in in A. apply sources_of_in in B.
    destruct (sources_of s n) as [|x [|y l]]; [destruct A| |simpl; lia].
    destruct A as [A|[]]; destruct B as [B|[]]. congruence.
  - intros L. destruct (sources_of s n) as [|x [|y l]] eqn:E; [simpl in L; lia|simpl in L; lia|].
    exists x, y. split; [|split; apply sources_of_in; rewrite E; simpl; auto].
    inversion N as [|? ? N1 N2]; subst. intros ->. apply N1. left. reflexivity.
Qed.
Lemma single_iff s src n : distinct_names s -> available s src n -> (~ shared s n <-> sources_of s n = [src]).
Proof.
  intros HD A. rewrite shared_iff by exact HD. apply sources_of_in in A. destruct (sources_of s n) as [|x [|y l]].
  - destruct A.
  - destruct A as [->|[]]. split; [reflexivity|]. simpl. lia.
  - split; [simpl; intros H; exfalso; lia|discriminate].
Qed.

(** the key under which a variable is entered *)
Definition lab (s : sources) (x : string * string) : string :=
  match sources_of s (snd x) with [_] => snd x | _ => snd x ++ "__" ++ fst x end.

Lemma dsets_keys l : forall d k, In k (keys (dsets l d)) -> In k (keys d) \/ In k (keys l).
Proof.
  induction l as [|[a b] l IH]; intros d k H; [left; exact H|]. cbn [dsets fold_left fst snd] in H.
  apply IH in H. destruct H as [H|H]; [|right; right; exact H].
  apply in_keys_dset in H. destruct H as [->|H]; [right; left; reflexivity|left; exact H].
Qed.

Lemma dsets_nodup l : forall d, NoDup (keys d) -> NoDup (keys (dsets l d)).
Proof.
  induction l as [|[a b] l IH]; intros d H; [exact H|]. cbn [dsets fold_left fst snd].
  apply IH. apply NoDup_keys_dset. exact H.
Qed.

Lemma keys_lab s k : In k (keys (all_keys s)) -> In k (map (lab s) (tagged s)).
Proof.
  intros H. unfold all_keys in H. rewrite check_keys_entries in H. apply dsets_keys in H. destruct H as [[]|H].
  fold (groups s) in H. unfold keys in H. apply in_map_iff in H. destruct H as ([k' src] & E & H). cbn in E. subst k'.
  apply in_flat_map in H. destruct H as ([n l] & Hg & H). apply groups_in in Hg. destruct Hg as [-> _].
  apply entries_in in H. destruct H as [A C]. apply in_map_iff. exists (src, n). split.
  - unfold lab. cbn [fst snd]. destruct C as [[C ->]|[C ->]]; [rewrite C; reflexivity|].
    destruct (sources_of s n) as [|x [|y l]]; [simpl in C; lia|simpl in C; lia|reflexivity].
  - apply available_tagged, sources_of_in. exact A.
Qed.

(** one key for each variable: the keys differ *)
Lemma lab_nodup s : distinct_names s -> one_key_each s -> NoDup (map (lab s) (tagged s)).
Proof.
  intros HD [H1 _]. assert (T := tagged_nodup s HD).
  assert (L : (List.length (tagged s) <= List.length (keys (all_keys s)))%nat).
  { rewrite <- (map_length (@Ok (string * string)) (tagged s)), <- (map_length (resolve_key (all_keys s)) (keys (all_keys s))).
    apply NoDup_incl_length.
    - apply FinFun.Injective_map_NoDup; [|exact T]. intros x y E. congruence.
    - intros x Hx. apply in_map_iff in Hx. destruct Hx as ([src n] & <- & Hx). apply available_tagged in Hx.
      destruct (H1 src n Hx) as (k & [K R] & _). rewrite <- R. apply in_map. exact K. }
  apply (NoDup_incl_NoDup (l := keys (all_keys s))).
  - unfold all_keys. rewrite check_keys_entries. apply dsets_nodup. constructor.
  - rewrite map_length. exact L.
  - intros k. apply keys_lab.
Qed.

Lemma map_inj_in {A B} (f : A -> B) l x y : NoDup (map f l) -> In x l -> In y l -> f x = f y -> x = y.
Proof.
  induction l as [|a l IH]; intros N X Y E; [destruct X|]. cbn [map] in N. inversion N as [|? ? N1 N2]; subst.
  destruct X as [->|X]; destruct Y as [->|Y]; auto; exfalso; apply N1.
  - rewrite E. apply in_map. exact Y.
  - rewrite <- E. apply in_map. exact X.
Qed.

Lemma longer n z : n <> n ++ "__" ++ z.
Proof. intros E. apply (f_equal String.length) in E. rewrite slength_app in E. simpl in E. lia. Qed.

Section Keys.
Variable s : sources.
Hypothesis HD : distinct_names s.
Hypothesis HA : forall src n t m, available s src n -> ~ shared s n -> available s t m -> shared s m -> n <> m ++ "__" ++ t.

Lemma entry_inj' n m k src t : In (k, src) (entries (n, sources_of s n)) -> In (k, t) (entries (m, sources_of s m)) ->
  n = m /\ src = t.
Proof.
  intros H1 H2. apply entries_in in H1. apply entries_in in H2. destruct H1 as [A1 B1]. destruct H2 as [A2 B2].
  assert (A1' := A1). assert (A2' := A2). apply sources_of_in in A1'. apply sources_of_in in A2'.
  destruct B1 as [[B1 C1]|[B1 C1]]; destruct B2 as [[B2 C2]|[B2 C2]]; subst k.
  - subst m. split; [reflexivity|]. rewrite B1 in B2. congruence.
  - exfalso. apply (HA src n t m A1'); [apply (single_iff s src n HD A1'); exact B1|exact A2'|apply shared_iff; assumption|exact C2].
  - exfalso. apply (HA t m src n A2'); [apply (single_iff s t m HD A2'); exact B2|exact A1'|apply shared_iff; assumption|symmetry; exact C2].
  - apply key_inj in C2; [exact C2|eapply src_ok; exact A1|eapply src_ok; exact A2].
Qed.

Lemma flat_entries_nodup' g : NoDup (keys g) -> (forall n l, In (n, l) g -> l = sources_of s n) ->
  NoDup (keys (flat_map entries g)).
Proof.
  induction g as [|[n l] g IH]; intros N H; [constructor|]. cbn [flat_map]. unfold keys in *. rewrite map_app.
  cbn [map fst] in N. inversion N as [|? ? N1 N2]; subst. assert (l = sources_of s n) by (apply H; left; reflexivity). subst l.
  apply nodup_app.
  - apply entries_nodup. exact HD.
  - apply IH; [exact N2|]. intros n' l' Hi. apply H. right; exact Hi.
  - intros k H1 H2. apply in_map_iff in H1. destruct H1 as ([k1 s1] & E1 & H1). apply in_map_iff in H2.
    destruct H2 as ([k2 s2] & E2 & H2). cbn in E1, E2. subst k1 k2. apply in_flat_map in H2. destruct H2 as ([m l'] & Hm & H2).
    assert (l' = sources_of s m) by (apply H; right; exact Hm). subst l'.
    destruct (entry_inj' _ _ _ _ _ H1 H2) as [-> _]. apply N1. apply in_map_iff. exists (m, sources_of s m). auto.
Qed.

Lemma all_keys_entries' : all_keys s = flat_map entries (groups s) /\ NoDup (keys (all_keys s)).
Proof.
  assert (N : NoDup (keys (flat_map entries (groups s)))).
  { apply flat_entries_nodup'.
    - apply (C32_groups _ _ _ string_dec snd fst (tagged s)).
    - intros n l H. apply groups_in in H. tauto. }
  assert (E : all_keys s = flat_map entries (groups s)).
  { unfold all_keys. rewrite check_keys_entries. apply dsets_new. exact N. }
  rewrite E. auto.
Qed.

Lemma all_keys_in' k src : In (k, src) (all_keys s) <->
  exists n, available s src n /\ ((~ shared s n /\ k = n) \/ (shared s n /\ k = n ++ "__" ++ src)).
Proof.
  rewrite (proj1 all_keys_entries'), in_flat_map. split.
  - intros ([n l] & Hg & H). apply groups_in in Hg. destruct Hg as [-> _]. apply entries_in in H. exists n.
    destruct H as [A C]. apply sources_of_in in A. split; [exact A|].
    rewrite (single_iff s src n HD A), (shared_iff s n HD). exact C.
  - intros (n & Ha & H). rewrite (single_iff s src n HD Ha), (shared_iff s n HD) in H.
    exists (n, sources_of s n). apply sources_of_in in Ha. split; [|apply entries_in; auto].
    apply groups_in. split; [reflexivity|]. intros Q. rewrite Q in Ha. destruct Ha.
Qed.

(** what a key of the table leads to *)
Lemma resolve_in k src : In (k, src) (all_keys s) ->
  resolve_key (all_keys s) k = if endswith ("__" ++ src) k then Ok (src, cut (String.length ("__" ++ src)) k) else Ok (src, k).
Proof.
  intros Hk. unfold resolve_key. rewrite (dget_in_nodup string_dec k src (all_keys s)); [reflexivity|apply all_keys_entries'|exact Hk].
Qed.
Lemma resolve_suffix n src : In (n ++ "__" ++ src, src) (all_keys s) -> resolve_key (all_keys s) (n ++ "__" ++ src) = Ok (src, n).
Proof.
  intros H. rewrite (resolve_in _ _ H).
  assert (E : endswith ("__" ++ src) (n ++ "__" ++ src) = true) by (apply endswith_iff; eauto). rewrite E, cut_app. reflexivity.
Qed.
Lemma resolve_plain n src : In (n, src) (all_keys s) -> (forall m, n <> m ++ "__" ++ src) -> resolve_key (all_keys s) n = Ok (src, n).
Proof.
  intros H N. rewrite (resolve_in _ _ H). destruct (endswith ("__" ++ src) n) eqn:E; [|reflexivity].
  apply endswith_iff in E. destruct E as [z E]. destruct (N z E).
Qed.

Lemma shared_dec n : shared s n \/ ~ shared s n.
Proof. rewrite (shared_iff s n HD). lia. Qed.

(** sufficient *)
Lemma unamb_one_key : (forall src n m, available s src n -> ~ shared s n -> n <> m ++ "__" ++ src) -> one_key_each s.
Proof.
  intros HB.
  assert (A : forall k src, In (k, src) (all_keys s) -> exists n, available s src n /\
    ((~ shared s n /\ k = n) \/ (shared s n /\ k = n ++ "__" ++ src)) /\ resolve_key (all_keys s) k = Ok (src, n)).
  { intros k src H. assert (H' := H). apply all_keys_in' in H'. destruct H' as (n & Ha & C). exists n.
    split; [exact Ha|]. split; [exact C|]. destruct C as [[C ->]|[C ->]].
    - apply resolve_plain; [exact H|]. intros m. apply HB; assumption.
    - apply resolve_suffix. exact H. }
  split.
  - intros src n Ha.
    assert (X : exists k, (~ shared s n /\ k = n) \/ (shared s n /\ k = n ++ "__" ++ src)) by (destruct (shared_dec n); eauto).
    destruct X as [k C]. assert (Hk : In (k, src) (all_keys s)) by (apply all_keys_in'; eauto).
    exists k. split; [split|].
    + apply in_map_iff. exists (k, src). auto.
    + destruct C as [[C ->]|[C ->]]; [apply resolve_plain; [exact Hk|intros m; apply HB; assumption]|apply resolve_suffix; exact Hk].
    + intros k' [K R]. apply in_map_iff in K. destruct K as ([k2 s2] & E & K). cbn in E. subst k2.
      destruct (A _ _ K) as (n' & A' & C' & R'). rewrite R in R'. inversion R'. subst s2 n'. intuition congruence.
  - intros k K. apply in_map_iff in K. destruct K as ([k2 s2] & E & K). cbn in E. subst k2.
    destruct (A _ _ K) as (n & A' & _ & R). eauto.
Qed.

(** necessary, second part *)
Lemma one_key_plain : one_key_each s -> forall l n src m, (String.length n <= l)%nat -> available s src n -> ~ shared s n -> n <> m ++ "__" ++ src.
Proof.
  intros [H1 H2]. induction l as [|l IH]; intros n src m L A S E.
  - rewrite E, slength_app in L. simpl in L. lia.
  - assert (K : In (n, src) (all_keys s)) by (apply all_keys_in'; exists n; auto).
    assert (Kn : In n (keys (all_keys s))) by (apply in_map_iff; exists (n, src); auto).
    assert (R : resolve_key (all_keys s) n = Ok (src, m)) by (rewrite E in K |- *; apply resolve_suffix; exact K).
    destruct (H2 n Kn) as (src' & m' & Am & R'). rewrite R in R'. inversion R'. subst src' m'.
    destruct (shared_dec m) as [Sm|Sm]; [exact (HA src n src m A S Am Sm E)|].
    assert (Km : In (m, src) (all_keys s)) by (apply all_keys_in'; exists m; auto).
    assert (Rm : resolve_key (all_keys s) m = Ok (src, m)).
    { apply resolve_plain; [exact Km|]. intros z. apply IH; [|exact Am|exact Sm].
      rewrite E, slength_app in L. simpl in L. lia. }
    destruct (H1 src m Am) as (k & _ & U). assert (U1 := U n (conj Kn R)).
    assert (U2 : k = m) by (apply U; split; [apply in_map_iff; exists (m, src); auto|exact Rm]).
    apply (longer m src). congruence.
Qed.
End Keys.

Lemma one_key_iff s : distinct_names s -> (one_key_each s <-> unambiguous s).
Proof.
  intros HD. split.
  - intros H. assert (HA : forall src n t m, available s src n -> ~ shared s n -> available s t m -> shared s m -> n <> m ++ "__" ++ t).
    { intros src n t m A S B T E. assert (X : (src, n) = (t, m)).
      { apply (map_inj_in (lab s) (tagged s)); [apply lab_nodup; assumption|apply available_tagged; assumption..|].
        unfold lab. cbn [fst snd]. rewrite (proj1 (single_iff s src n HD A) S). apply shared_iff in T; [|exact HD].
        destruct (sources_of s m) as [|x [|y l]]; [simpl in T; lia|simpl in T; lia|exact E]. }
      inversion X as [[X1 X2]]. apply (longer m t). congruence. }
    split; [|exact HA]. intros src n m A S. exact (one_key_plain s HD HA H (String.length n) n src m (le_n _) A S).
  - intros [HB HA]. apply unamb_one_key; assumption.
Qed.

Lemma suffix_free_unambiguous s : suffix_free s -> unambiguous s.
Proof.
  intros F. split.
  - intros src n m A _. apply (F src n A). exact (tagged_src s src n (proj1 (available_tagged s src n) A)).
  - intros src n t m A _ B _. apply (F src n A). exact (tagged_src s t m (proj1 (available_tagged s t m) B)).
Qed.
