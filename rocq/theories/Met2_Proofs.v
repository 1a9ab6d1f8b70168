(** Lemmas for the keys of the metrics. *)
From Coq Require Import List Bool String Ascii Lia Arith Permutation.
From Verif Require Import Base Base_Proofs GF_Model GF_Proofs GF_Props Str_Model Str_Proofs Met_Model Met_Spec.
Import ListNotations.
Open Scope string_scope.

Definition srcs : list string := ["dataset"; "calc_model"; "res_df"; "auxdat"].

Lemma sapp_suffix a x b y : a ++ x = b ++ y -> (exists z, y = z ++ x) \/ (exists z, x = z ++ y).
Proof.
  revert b. induction a as [|c a IH]; intros b H; [right; exists b; exact H|].
  destruct b as [|d b]; [left; exists (String c a); symmetry; exact H|].
  simpl in H. inversion H. eauto.
Qed.
Lemma sapp_inj_r a b x : a ++ x = b ++ x -> a = b.
Proof.
  intros H. assert (L : String.length a = String.length b).
  { apply (f_equal String.length) in H. rewrite !slength_app in H. lia. }
  revert b H L. induction a as [|c a IH]; intros [|d b] H L; simpl in *; try discriminate; [reflexivity|].
  inversion H. f_equal. apply IH; [assumption|lia].
Qed.
Lemma src_suffix s t : In s srcs -> In t srcs -> s <> t -> forall z, "__" ++ t <> z ++ "__" ++ s.
Proof.
  intros Hs Ht Hn z E. assert (T : endswith ("__" ++ s) ("__" ++ t) = true) by (apply endswith_iff; eauto).
  repeat (destruct Hs as [<-|Hs]; [repeat (destruct Ht as [<-|Ht]; [congruence || discriminate|]); destruct Ht|]).
  destruct Hs.
Qed.
Lemma key_inj n m s t : In s srcs -> In t srcs -> n ++ "__" ++ s = m ++ "__" ++ t -> n = m /\ s = t.
Proof.
  intros Hs Ht E. destruct (string_dec s t) as [->|Hn]; [split; [eapply sapp_inj_r; exact E|reflexivity]|].
  apply sapp_suffix in E. destruct E as [[z E]|[z E]]; exfalso.
  - exact (src_suffix s t Hs Ht Hn z E).
  - exact (src_suffix t s Ht Hs (fun e => Hn (eq_sym e)) z E).
Qed.

(** ** the entries of a group *)
Definition entries (kv : string * list string) : list (string * string) :=
  match snd kv with
  | [] => []
  | [i] => [(fst kv, i)]
  | l => map (fun i => (fst kv ++ "__" ++ i, i)) l
  end.
Definition dsets (l : list (string * string)) (d : dict string string) : dict string string :=
  fold_left (fun g e => dset string_dec (fst e) (snd e) g) l d.
Lemma check_key_entries d kv : check_key d kv = dsets (entries kv) d.
Proof.
  destruct kv as [k [|i [|j l]]]; try reflexivity. unfold check_key, entries, dsets. cbn [fst snd].
  generalize (i :: j :: l). intros m. revert d. induction m as [|x m IH]; intros d; [reflexivity|].
  cbn [map fold_left fst snd]. apply IH.
Qed.
Lemma check_keys_entries g : forall d, fold_left check_key g d = dsets (flat_map entries g) d.
Proof.
  induction g as [|kv g IH]; intros d; [reflexivity|]. cbn [fold_left flat_map]. rewrite IH, check_key_entries.
  unfold dsets. rewrite fold_left_app. reflexivity.
Qed.
Lemma dsets_new l : forall d, NoDup (keys (d ++ l)%list) -> dsets l d = (d ++ l)%list.
Proof.
  induction l as [|[k v] l IH]; intros d H; [rewrite app_nil_r; reflexivity|].
  cbn [dsets fold_left fst snd]. change (dsets l (dset string_dec k v d) = (d ++ (k, v) :: l)%list).
  assert (N : ~ In k (keys d)).
  { unfold keys in *. rewrite map_app in H. apply NoDup_remove_2 in H. intros Hi. apply H. apply in_or_app. left; exact Hi. }
  assert (E : dset string_dec k v d = (d ++ [(k, v)])%list).
  { clear - N. induction d as [|[a b] d IHd]; simpl in *; [reflexivity|]. destruct (string_dec k a); [subst; tauto|].
    rewrite IHd; [reflexivity|tauto]. }
  rewrite E, IH; rewrite <- app_assoc; [reflexivity|exact H].
Qed.

(** ** groups *)
Lemma available_tagged s src n : available s src n <-> In (src, n) (tagged s).
Proof.
  unfold tagged, modelkeys. rewrite !in_app_iff, !in_map_iff. split.
  - destruct 1.
    + left. eauto.
    + right; left. exists n. split; [reflexivity|]. apply in_or_app. left; exact H.
    + right; left. exists "inter". split; [reflexivity|]. apply in_or_app. right. rewrite H. left; reflexivity.
    + right; right; left. eauto.
    + right; right; right. eauto.
  - intros [(x & E & H)|[(x & E & H)|[(x & E & H)|(x & E & H)]]]; inversion E; subst.
    + constructor; exact H.
    + apply in_app_or in H. destruct H as [H|H]; [constructor; exact H|].
      destruct (s_int_Q s) eqn:Q; [|destruct H]. destruct H as [<-|[]]. apply Av_inter. exact Q.
    + constructor; exact H.
    + constructor; exact H.
Qed.
Lemma tagged_src s src n : In (src, n) (tagged s) -> In src srcs.
Proof. intros H. apply available_tagged in H. destruct H; simpl; auto. Qed.
Lemma nodup_map_pair (a : string) (l : list string) : NoDup l -> NoDup (map (pair a) l).
Proof.
  induction 1 as [|x l H _ IH]; simpl; constructor; [|exact IH]. intros Hi. apply in_map_iff in Hi.
  destruct Hi as (y & E & Hy). congruence.
Qed.
Lemma nodup_app {A} (l m : list A) : NoDup l -> NoDup m -> (forall x, In x l -> ~ In x m) -> NoDup (l ++ m).
Proof.
  induction 1 as [|x l H _ IH]; simpl; intros Hm Hd; [exact Hm|]. constructor.
  - rewrite in_app_iff. intros [Hi|Hi]; [tauto|]. apply (Hd x); auto.
  - apply IH; [exact Hm|]. intros y Hy. apply Hd. auto.
Qed.
Lemma tagged_nodup s : distinct_names s -> NoDup (tagged s).
Proof.
  intros (H1 & H2 & H3). unfold tagged.
  repeat apply nodup_app; try (apply nodup_map_pair; assumption).
  - apply nodup_map_pair. unfold modelkeys. destruct (s_int_Q s); repeat constructor; simpl; intuition discriminate.
  - intros x Hx Hy. apply in_map_iff in Hx. apply in_map_iff in Hy. destruct Hx as (u & <- & _). destruct Hy as (v & E & _). discriminate.
  - intros x Hx Hy. apply in_app_or in Hy. apply in_map_iff in Hx. destruct Hx as (u & <- & _).
    destruct Hy as [Hy|Hy]; apply in_map_iff in Hy; destruct Hy as (v & E & _); discriminate.
  - intros x Hx Hy. apply in_app_or in Hy. rewrite in_app_iff in Hy. apply in_map_iff in Hx. destruct Hx as (u & <- & _).
    destruct Hy as [Hy|[Hy|Hy]]; apply in_map_iff in Hy; destruct Hy as (v & E & _); discriminate.
Qed.
Definition groups (s : sources) := groupby_unsorted string_dec snd fst (tagged s).
Definition sources_of (s : sources) (n : string) : list string :=
  map fst (filter (fun x => if string_dec (snd x) n then true else false) (tagged s)).
Lemma sources_of_in s n src : In src (sources_of s n) <-> available s src n.
Proof.
  rewrite available_tagged. unfold sources_of. rewrite in_map_iff. split.
  - intros ([a b] & E & H). apply filter_In in H. cbn [fst snd] in *. destruct H as [H1 H2].
    destruct (string_dec b n); [subst; exact H1|discriminate].
  - intros H. exists (src, n). split; [reflexivity|]. apply filter_In. split; [exact H|]. cbn [snd].
    destruct (string_dec n n); congruence.
Qed.
Lemma sources_of_nodup s n : distinct_names s -> NoDup (sources_of s n).
Proof.
  intros H. apply tagged_nodup in H. unfold sources_of. induction (tagged s) as [|[a b] l IH]; simpl; [constructor|].
  inversion H; subst. destruct (string_dec b n) as [->|]; [|auto]. simpl. constructor; [|auto].
  intros Hi. apply in_map_iff in Hi. destruct Hi as ([c d] & E & Hi). apply filter_In in Hi. cbn [fst snd] in *.
  destruct (string_dec d n); [subst; tauto|destruct Hi; discriminate].
Qed.
Lemma groups_in s n l : In (n, l) (groups s) <-> l = sources_of s n /\ l <> [].
Proof.
  destruct (C32_groups _ _ _ string_dec snd fst (tagged s)) as (N & K & G & _). fold (groups s) in *. split.
  - intros H. apply G in H. destruct H as [H1 H2]. split; [exact H1|exact H2].
  - intros [H1 H2]. destruct l as [|a l]; [congruence|].
    assert (A : In n (keys (groups s))).
    { apply K. assert (I : In a (sources_of s n)) by (rewrite <- H1; left; reflexivity).
      apply sources_of_in, available_tagged in I. exists (a, n). auto. }
    unfold keys in A. apply in_map_iff in A. destruct A as ([n' l'] & E & A). cbn in E. subst n'.
    assert (A' := A). apply G in A'. destruct A' as [A1 _].
    replace (a :: l) with l'; [exact A|]. rewrite H1. exact A1.
Qed.

(** an entry of the result *)
Lemma entries_in s n k src : In (k, src) (entries (n, sources_of s n)) <->
  In src (sources_of s n) /\
  ((sources_of s n = [src] /\ k = n) \/ ((2 <= List.length (sources_of s n))%nat /\ k = n ++ "__" ++ src)).
Proof.
  unfold entries. cbn [fst snd]. destruct (sources_of s n) as [|i [|j l]].
  - simpl. tauto.
  - simpl. split.
    + intros [E|[]]. inversion E; subst. split; [auto|]. left; auto.
    + intros [[<-|[]] [[_ ->]|[H _]]]; [left; reflexivity|lia].
  - rewrite in_map_iff. split.
    + intros (x & E & H). inversion E; subst. split; [exact H|]. right. split; [simpl; lia|reflexivity].
    + intros [H [[E _]|[_ ->]]]; [discriminate|]. exists src. auto.
Qed.

Section Keys.
Variable s : sources.
Hypothesis HD : distinct_names s.
Hypothesis HS : suffix_free s.

Lemma src_ok n src : In src (sources_of s n) -> In src srcs.
Proof. intros H. apply sources_of_in, available_tagged in H. eapply tagged_src; exact H. Qed.

Lemma entry_inj n m k src t : In (k, src) (entries (n, sources_of s n)) -> In (k, t) (entries (m, sources_of s m)) ->
  n = m /\ src = t.
Proof.
  intros H1 H2. apply entries_in in H1. apply entries_in in H2. destruct H1 as [A1 B1]. destruct H2 as [A2 B2].
  destruct B1 as [[B1 C1]|[B1 C1]]; destruct B2 as [[B2 C2]|[B2 C2]]; subst k.
  - subst m. split; [reflexivity|]. rewrite B1 in B2. congruence.
  - exfalso. apply sources_of_in in A1. apply (HS src n A1 m t); [eapply src_ok; exact A2|exact C2].
  - exfalso. apply sources_of_in in A2. apply (HS t m A2 n src); [eapply src_ok; exact A1|symmetry; exact C2].
  - apply key_inj in C2; [exact C2|eapply src_ok; exact A1|eapply src_ok; exact A2].
Qed.

Lemma entries_nodup n : NoDup (keys (entries (n, sources_of s n))).
Proof.
  unfold entries. cbn [fst snd]. assert (N := sources_of_nodup s n HD). assert (O := src_ok n).
  destruct (sources_of s n) as [|i [|j l]]; [constructor|repeat constructor; simpl; tauto|].
  unfold keys. rewrite map_map. cbn [fst]. revert N O. generalize (i :: j :: l). intros m N O.
  induction N as [|x m H N IH]; simpl; constructor.
  - intros Hi. apply in_map_iff in Hi. destruct Hi as (y & E & Hy).
    apply key_inj in E; [destruct E; subst; tauto|apply O; right; exact Hy|apply O; left; reflexivity].
  - apply IH. intros y Hy. apply O. right; exact Hy.
Qed.

Lemma flat_entries_nodup g : NoDup (keys g) -> (forall n l, In (n, l) g -> l = sources_of s n) ->
  NoDup (keys (flat_map entries g)).
Proof.
  induction g as [|[n l] g IH]; intros N H; [constructor|]. cbn [flat_map]. unfold keys in *. rewrite map_app.
  cbn [map fst] in N. inversion N as [|? ? N1 N2]; subst. assert (l = sources_of s n) by (apply H; left; reflexivity). subst l.
  apply nodup_app.
  - apply entries_nodup.
  - apply IH; [exact N2|]. intros n' l' Hi. apply H. right; exact Hi.
  - intros k H1 H2. apply in_map_iff in H1. destruct H1 as ([k1 s1] & E1 & H1). apply in_map_iff in H2.
    destruct H2 as ([k2 s2] & E2 & H2). cbn in E1, E2. subst k1 k2. apply in_flat_map in H2. destruct H2 as ([m l'] & Hm & H2).
    assert (l' = sources_of s m) by (apply H; right; exact Hm). subst l'.
    destruct (entry_inj _ _ _ _ _ H1 H2) as [-> _]. apply N1. apply in_map_iff. exists (m, sources_of s m). auto.
Qed.

Lemma all_keys_entries : all_keys s = flat_map entries (groups s) /\ NoDup (keys (all_keys s)).
Proof.
  assert (N : NoDup (keys (flat_map entries (groups s)))).
  { apply flat_entries_nodup.
    - apply (C32_groups _ _ _ string_dec snd fst (tagged s)).
    - intros n l H. apply groups_in in H. tauto. }
  assert (E : all_keys s = flat_map entries (groups s)).
  { unfold all_keys. rewrite check_keys_entries. apply dsets_new. exact N. }
  rewrite E. auto.
Qed.

Lemma all_keys_in k src : In (k, src) (all_keys s) <->
  exists n, available s src n /\
    ((sources_of s n = [src] /\ k = n) \/ ((2 <= List.length (sources_of s n))%nat /\ k = n ++ "__" ++ src)).
Proof.
  rewrite (proj1 all_keys_entries), in_flat_map. split.
  - intros ([n l] & Hg & H). apply groups_in in Hg. destruct Hg as [-> _]. apply entries_in in H. exists n.
    rewrite <- sources_of_in. exact H.
  - intros (n & Ha & H). exists (n, sources_of s n). apply sources_of_in in Ha. split; [|apply entries_in; auto].
    apply groups_in. split; [reflexivity|]. intros Q. rewrite Q in Ha. destruct Ha.
Qed.

Lemma cut_app a b : cut (String.length b) (a ++ b) = a.
Proof.
  unfold cut. rewrite slength_app, Nat.add_sub.
  induction a as [|c a IH]; simpl; [destruct b; reflexivity|]. f_equal. exact IH.
Qed.

Lemma resolve_entry k src n : In (k, src) (all_keys s) -> available s src n ->
  ((sources_of s n = [src] /\ k = n) \/ ((2 <= List.length (sources_of s n))%nat /\ k = n ++ "__" ++ src)) ->
  resolve_key (all_keys s) k = Ok (src, n).
Proof.
  intros Hk Ha H. unfold resolve_key. rewrite (dget_in_nodup string_dec k src (all_keys s)); [|apply all_keys_entries|exact Hk].
  destruct H as [[H ->]|[H ->]].
  - destruct (endswith ("__" ++ src) n) eqn:E; [exfalso|reflexivity]. apply endswith_iff in E. destruct E as [z E].
    apply (HS src n Ha z src); [|exact E]. apply available_tagged, tagged_src in Ha. exact Ha.
  - assert (E : endswith ("__" ++ src) (n ++ "__" ++ src) = true) by (apply endswith_iff; eauto). rewrite E, cut_app. reflexivity.
Qed.
End Keys.
