(** Exact outcomes of C118, C126 and C129. *)
From Coq Require Import ZArith Bool Arith Lia Permutation String List.
From Verif Require Import Base Str_Model GF_Model Fit_Model Fit_Spec Fit2_Proofs Fit3_Proofs Res_Model Res_Spec Res_Props Rdr_Model Rdr_Spec Rdr_Proofs Rdr_Props.
Import ListNotations.
Local Open Scope string_scope.
Local Open Scope list_scope.

(** ** C118: the table holds the value of every observation if and only if observations of one date have the same value *)
Lemma uniq_row {X} (df : list (Z * X)) t v w : NoDup (map fst df) -> In (t, v) df -> In (t, w) df -> v = w.
Proof.
  induction df as [|[k x] r IH]; intros N A B; [contradiction|]. cbn in N. apply NoDup_cons_iff in N as [N1 N2].
  destruct A as [A|A], B as [B|B].
  - congruence.
  - injection A as -> ->. exfalso. apply N1. change t with (fst (t, w)). now apply in_map.
  - injection B as -> ->. exfalso. apply N1. change t with (fst (t, v)). now apply in_map.
  - now apply IH.
Qed.
Theorem C118_exactly : forall (V : Type) gi index (p : list Z * list V) d, gi <> [] -> List.length index = List.length gi ->
  List.length (fst p) = List.length gi -> List.length (snd p) = List.length (uniq (fst p)) -> sorted index ->
  exists df, res_df gi index (fst p) (snd p) = Ok df /\
  ((forall i, (i < List.length gi)%nat -> In (nth i index 0%Z, Some (value_at d p i)) df) <->
   (forall i j, (i < List.length gi)%nat -> (j < List.length gi)%nat -> nth i index 0%Z = nth j index 0%Z -> value_at d p i = value_at d p j)).
Proof.
  intros V gi index p d H0 H1 H2 H3 H4. destruct (C118_res_df V gi index p d H0 H1 H2 H3 H4) as (df & E & K & R). exists df. split; [exact E|].
  assert (N : NoDup (map fst df)) by (rewrite K; apply NoDup_uniq). split.
  - intros A i j Hi Hj Q. assert (X := A i Hi). assert (Y := A j Hj). rewrite <- Q in Y. assert (Z := uniq_row df _ _ _ N X Y). congruence.
  - intros A i Hi. assert (X : In (nth i index 0%Z) (map fst df)) by (rewrite K; apply in_uniq, nth_In; lia).
    apply in_map_iff in X as ([t v] & T & I). cbn in T. subst t. destruct (R _ _ I) as (j & (a & b & P & Tj & _) & ->).
    assert (Hj : (j < List.length gi)%nat).
    { assert (W : In j (processing_order gi)) by (rewrite P; apply in_or_app; right; now left).
      apply (Permutation_in _ (processing_order_perm gi)), in_seq in W. lia. }
    rewrite <- (A j i Hj Hi Tj). exact I.
Qed.
Print Assumptions C118_exactly.
Example C118_exactly_example : let p := ([1; 1; 1; 2]%Z, ["a"; "b"]) in sorted [5; 5; 6; 7]%Z /\ List.length (snd p) = List.length (uniq (fst p)) /\
  value_at "" p 0 = value_at "" p 1 /\ value_at "" ([1; 2; 1; 2]%Z, ["a"; "b"]) 0 <> value_at "" ([1; 2; 1; 2]%Z, ["a"; "b"]) 1.
Proof. split; [unfold sorted; repeat (constructor; [|repeat constructor; lia]); constructor|]. repeat split; try reflexivity. discriminate. Qed.

(** ** C126: the integer is the position of the feature for all positions if and only if the numbers are those of the rows *)
Theorem C126_exactly : forall (file : path -> option Z) rnd names, NoDup (map snd names) ->
  (forall i n ID, nth_error names i = Some (n, ID) ->
     load_fit_hdf file rnd names Some (IInt (Z.of_nat i)) false = load_fit_hdf file rnd names Some (IStr ID) false) <->
  map fst names = map Z.of_nat (seq 0 (List.length names)).
Proof.
  intros file rnd names N. split.
  - intros A. apply (nth_ext _ _ 0%Z 0%Z); [now rewrite !map_length, seq_length|]. intros i Hi. rewrite map_length in Hi.
    destruct (nth_error names i) as [[n ID]|] eqn:X; [|apply nth_error_None in X; lia].
    specialize (A i n ID X). assert (I := nth_error_In _ _ X).
    destruct (C126_by_name Z file rnd names Some ID N) as [B _]. rewrite (B n n I eq_refl) in A.
    assert (Q : n = Z.of_nat i).
    { destruct (in_dec Z.eq_dec (Z.of_nat i) (map fst names)) as [Y|Y].
      - apply in_map_iff in Y as ([m ID'] & Y1 & Y2). cbn in Y1. subst m.
        destruct (C126_nth_refuted Z file rnd names Some (Z.of_nat i) ID' (Z.of_nat i) N Y2 eq_refl) as [W _]. rewrite W in A. now injection A as ->.
      - destruct (C126_nth_refuted Z file rnd names Some n ID n N I eq_refl) as [_ W]. rewrite (W _ Y) in A. discriminate. }
    assert (L : nth i (map fst names) 0%Z = n) by (apply nth_error_nth; rewrite nth_error_map, X; reflexivity).
    rewrite L, Q. symmetry. change 0%Z with (Z.of_nat 0). rewrite map_nth, seq_nth; [reflexivity|exact Hi].
  - intros E i n ID X. eapply C126_nth; eauto.
Qed.
Print Assumptions C126_exactly.
Example C126_exactly_example : NoDup (map snd [(0%Z, "a"); (1%Z, "b")]) /\ map fst [(0%Z, "a"); (1%Z, "b")] = map Z.of_nat (seq 0 2) /\
  map fst [(2%Z, "c"); (1%Z, "b")] <> map Z.of_nat (seq 0 2).
Proof. split; [repeat constructor; cbn; intuition discriminate|]. split; [reflexivity|discriminate]. Qed.

(** ** C129: with a list or "all" no exception if and only if every table has several levels; with the default if and only if none has an empty list *)
Theorem C129_exactly : forall a store, snd (create_index a store) = None <->
  (forall key s, In (key, s) store -> data_table (key, s) -> match a with ArgNone => s <> Multi [] | _ => s <> Single end).
Proof.
  intros a. induction store as [|[k s] r IH]; cbn [create_index]; [split; [intros _ ? ? []|reflexivity]|].
  destruct (endswith "/meta" k) eqn:M.
  - rewrite IH. split; intros H key t I D.
    + destruct I as [I|I]; [injection I as <- <-; unfold data_table in D; cbn in D; congruence|now apply (H key)].
    + apply (H key); [now right|exact D].
  - destruct (use_levels a s) as [u|e] eqn:U.
    + destruct (create_index a r) as [done e] eqn:C. cbn [snd] in IH |- *. rewrite IH. split; intros H key t I D.
      * destruct I as [I|I]; [injection I as <- <-|now apply (H key)]. destruct a, s as [|[|x ls]]; cbn in U; discriminate.
      * apply (H key); [now right|exact D].
    + cbn [snd]. split; [discriminate|]. intros H. exfalso. specialize (H k s (or_introl eq_refl) M).
      destruct a, s as [|[|x ls]]; cbn in U; try discriminate; now apply H.
Qed.
Print Assumptions C129_exactly.
Example C129_exactly_example : snd (create_index ArgAll [("/cfg/dynamic", Multi ["ID"; "date"]); ("/cfg/dynamic/meta", Single)]) = None /\
  snd (create_index ArgAll [("/reader_arg", Single)]) = Some TypeError /\ snd (create_index ArgNone [("/reader_arg", Single)]) = None.
Proof. repeat split. Qed.
