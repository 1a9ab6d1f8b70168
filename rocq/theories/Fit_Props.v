(** Properties of the fits: grouping, values, vectors, jacobian (C55-C60, C94, C95) *)
From Coq Require Import String Ascii ZArith Bool Lia Permutation Sorted Arith List.
From Verif Require Import Base Base_Proofs GF_Model GF_Proofs Str_Model Fit_Model Fit_Spec Fit_Proofs Fit2_Proofs Fit3_Proofs Fit4_Proofs Fit5_Proofs.
Import ListNotations.
Local Open Scope list_scope.

(** ** C55: combined groups *)
(** For group numbers with together at most 18 digits: two observations are
    in the same combined group iff they agree in every fitted parameter. *)
Theorem C55_group_index : forall cols ws n, (1 <= n)%nat -> cols <> [] -> (forall c, In c cols -> length c = n) ->
  Forall2 fits_width ws cols -> (total ws <= 18)%nat ->
  exists gi, groupindex cols = Ok gi /\ length gi = n /\
    forall i j, (i < n)%nat -> (j < n)%nat -> (nth i gi 0%Z = nth j gi 0%Z <-> agree cols i j).
Proof. exact groupindex_ok. Qed.
Print Assumptions C55_group_index.

Example C55_example : groupindex [[0; 1; 1; 10]; [3; 3; 4; 4]]%Z = Ok [3; 13; 14; 104]%Z.
Proof. reflexivity. Qed.

(** the combined groups refine the groups of each parameter *)
Theorem C55_refines : forall cols ws n gi, (1 <= n)%nat -> cols <> [] -> (forall c, In c cols -> length c = n) ->
  Forall2 fits_width ws cols -> (total ws <= 18)%nat -> groupindex cols = Ok gi ->
  forall c, In c cols -> refines gi c.
Proof.
  intros cols ws n gi H1 H2 H3 H4 H5 E c Hc. destruct (groupindex_ok cols ws n H1 H2 H3 H4 H5) as (gi' & E' & L & H).
  assert (gi' = gi) by congruence. subst gi'. split; [rewrite (H3 c Hc); exact L|].
  intros i j Hi Hj Eij. rewrite L in Hi, Hj. apply (H i j Hi Hj); auto.
Qed.
Print Assumptions C55_refines.

(** Longer group numbers: numpy turns the integers into doubles and two
    different observations fall into one group. *)
Theorem C55_refuted : exists cols gi i j, groupindex cols = Ok gi /\ (i < length gi)%nat /\ (j < length gi)%nat /\
  nth i gi 0%Z = nth j gi 0%Z /\ ~ agree cols i j.
Proof.
  exists [[0; 9500; 9500]; [0; 100000000000000; 100000000000001]]%Z.
  eexists. exists 1%nat, 2%nat. split; [vm_compute; reflexivity|]. repeat split; try (simpl; lia).
  intros H. specialize (H [0; 100000000000000; 100000000000001]%Z). simpl in H.
  assert (100000000000000 = 100000000000001)%Z by (apply H; auto). discriminate.
Qed.
Print Assumptions C55_refuted.

(** ** C56: integer frequencies *)
(** For sorted dates and 1 <= f <= number of distinct dates: the groups are
    consecutive, equal dates share a group, all group numbers 0 .. n/f-1 occur,
    and the number of distinct dates per group is between f and
    f + ceil(rest / groups); any two groups differ by at most one date. *)
Theorem C56_integer_frequency : forall bins f index, sorted index -> let n := length (uniq index) in (1 <= f <= n)%nat ->
  exists dyn, param_dyn bins index (FInt (Z.of_nat f) false) None = Ok dyn /\ length dyn = length index /\ sorted dyn /\
    (forall i j, (i < length index)%nat -> (j < length index)%nat -> nth i index 0%Z = nth j index 0%Z -> nth i dyn 0%Z = nth j dyn 0%Z) /\
    (forall i, (i < length index)%nat -> (0 <= nth i dyn 0 < Z.of_nat (n / f))%Z) /\
    (forall k, (k < n / f)%nat -> f <= length (dates_of index dyn (Z.of_nat k)) <= f + (n mod f + (n / f - 1)) / (n / f))%nat /\
    (forall k l, (k < n / f)%nat -> (l < n / f)%nat ->
       length (dates_of index dyn (Z.of_nat k)) <= S (length (dates_of index dyn (Z.of_nat l))))%nat.
Proof.
  intros bins f index Hs n Hf. cbn [param_dyn]. rewrite (int_dyn_ok f index Hs Hf). cbn [bind]. eexists. split; [reflexivity|].
  set (g := fun t => nth (rank index t) (block_numbers f (length (uniq index))) 0%Z).
  assert (Hg : (1 <= n / f)%nat) by (apply Nat.div_le_lower_bound; lia).
  split; [apply map_length|]. split; [apply int_dyn_sorted; auto|]. split; [|split; [|split]].
  - intros i j Hi Hj E. rewrite !(nth_map_lt g index _ 0%Z) by auto. rewrite E. reflexivity.
  - intros i Hi. rewrite (nth_map_lt g index i 0%Z) by auto. apply block_numbers_range, nth_In.
    rewrite block_numbers_length by exact Hf. apply rank_lt, nth_In. exact Hi.
  - intros k Hk. unfold g. rewrite dates_count by auto. unfold sizes. fold n.
    set (m := (n / f)%nat) in *. set (r := (n mod f)%nat).
    pose proof (Nat.div_mod r m ltac:(lia)) as Hd. pose proof (Nat.mod_upper_bound r m ltac:(lia)) as Hm.
    destruct (Nat.ltb_spec k (r mod m)); split; try lia.
    + apply Nat.add_le_mono_l. apply Nat.div_le_lower_bound; nia.
    + apply Nat.add_le_mono_l. rewrite Nat.add_0_r. apply Nat.div_le_mono; lia.
  - intros k l Hk Hl. unfold g. rewrite !dates_count by auto. unfold sizes.
    destruct (Nat.ltb k _), (Nat.ltb l _); lia.
Qed.
Print Assumptions C56_integer_frequency.

Example C56_example : param_dyn (fun _ => None) [1; 1; 2; 3; 4; 5; 5; 5; 6; 7; 8]%Z (FInt 3 false) None =
  Ok [0; 0; 0; 0; 0; 1; 1; 1; 1; 1; 1]%Z.
Proof. reflexivity. Qed.

(** more dates required per group than there are, or none: an exception *)
Theorem C56_too_few_dates : forall bins f index manual, (f = 0 \/ length (uniq index) < f)%nat -> index <> [] ->
  param_dyn bins index (FInt (Z.of_nat f) false) manual = Err ZeroDivisionError.
Proof.
  intros bins f index manual [->|H] Hne; cbn [param_dyn].
  - reflexivity.
  - unfold int_dyn. destruct (Z.eqb_spec (Z.of_nat f) 0) as [|_]; [lia|].
    fold (nunique index). rewrite nunique_uniq.
    rewrite <- Nat2Z.inj_div, <- Nat2Z.inj_mod, !Nat2Z.id, Nat.div_small, Nat.mod_small by auto.
    destruct index as [|x l]; [congruence|]. reflexivity.
Qed.
Print Assumptions C56_too_few_dates.

Example C56_example_few : param_dyn (fun _ => None) [1; 1; 2]%Z (FInt 3 false) None = Err ZeroDivisionError.
Proof. reflexivity. Qed.

(** offset strings: the group number of an observation is the number of the
    bin of its date *)
Theorem C56_offset_strings : forall bins s n bin index, sorted index -> bins s = Some (n, bin) ->
  (forall t, In t index -> (bin t < n)%nat) ->
  (forall t u, In t index -> In u index -> (t <= u)%Z -> (bin t <= bin u)%nat) ->
  param_dyn bins index (FOffset s false) None = Ok (map (fun t => Z.of_nat (bin t)) index).
Proof. intros bins s n bin index Hs Hb H1 H2. cbn [param_dyn]. rewrite Hb, offset_dyn_ok; auto. Qed.
Print Assumptions C56_offset_strings.

Example C56_example_offset : param_dyn (fun _ => Some (4, fun t => Z.to_nat (t / 10))%nat) [1; 5; 12; 31; 38]%Z (FOffset "10D" false) None =
  Ok [0; 0; 1; 3; 3]%Z.
Proof. reflexivity. Qed.

(** without a temporal frequency: one group *)
Theorem C56_static : forall bins index, exists dyn, param_dyn bins index FNone None = Ok dyn /\ length dyn = length index /\
  forall i j, (i < length index)%nat -> (j < length index)%nat -> nth i dyn 0%Z = nth j dyn 0%Z.
Proof.
  intros bins index. exists (repeat 1%Z (length index)). split; [reflexivity|]. split; [apply repeat_length|].
  assert (N : forall i, (i < length index)%nat -> nth i (repeat 1%Z (length index)) 0%Z = 1%Z).
  { intros i Hi. apply (repeat_spec (length index) 1%Z), nth_In. rewrite repeat_length. exact Hi. }
  intros i j Hi Hj. rewrite !N; auto.
Qed.
Print Assumptions C56_static.

Example C56_example_static : param_dyn (fun _ => None) [7; 7; 9; 11; 11]%Z FNone None = Ok [1; 1; 1; 1; 1]%Z.
Proof. reflexivity. Qed.

(** "index": one group per date *)
Theorem C56_index : forall bins index w, index <> [] -> fits_width w (map (fun t => Z.of_nat (rank index t)) index) -> (w <= 14)%nat ->
  exists dyn, param_dyn bins index FIndex None = Ok dyn /\ length dyn = length index /\
    forall i j, (i < length index)%nat -> (j < length index)%nat -> (nth i dyn 0%Z = nth j dyn 0%Z <-> nth i index 0%Z = nth j index 0%Z).
Proof.
  intros bins index w Hne Hw Hle. cbn [param_dyn]. rewrite index_dyn_rank.
  assert (N : forall i, (i < length index)%nat -> nth i (repeat 1%Z (length index)) 0%Z = 1%Z).
  { intros i Hi. assert (In (nth i (repeat 1%Z (length index)) 0%Z) (repeat 1%Z (length index))) by (apply nth_In; rewrite repeat_length; auto).
    apply repeat_spec in H. exact H. }
  destruct (combine_manual_ok (repeat 1%Z (length index)) (map (fun t => Z.of_nat (rank index t)) index) 1 w) as (d & E & L & _ & H).
  - rewrite repeat_length, map_length. reflexivity.
  - destruct index; simpl; congruence.
  - split; [lia|]. intros x Hx. apply repeat_spec in Hx. subst x. simpl. lia.
  - exact Hw.
  - lia.
  - exists d. split; [exact E|]. rewrite repeat_length in L, H. split; [exact L|]. intros i j Hi Hj. rewrite (H i j Hi Hj).
    rewrite !N, !(nth_map_lt (fun t => Z.of_nat (rank index t)) index _ 0%Z) by auto. split.
    + intros [_ Q]. apply Nat2Z.inj in Q. apply rank_inj in Q; auto; apply nth_In; auto.
    + intros ->. auto.
Qed.
Print Assumptions C56_index.

Example C56_example_index : param_dyn (fun _ => None) [7; 7; 9; 11; 11]%Z FIndex None = Ok [10; 10; 11; 12; 12]%Z.
Proof. reflexivity. Qed.

(** ** C57: manual variability *)
(** nonnegative integers of at most 14 digits: same group iff same value *)
Theorem C57_manual : forall bins index cz w, index <> [] -> length cz = length index -> fits_width w cz -> (w <= 14)%nat ->
  exists dyn, param_dyn bins index FManual (Some (map str_Z cz)) = Ok dyn /\ length dyn = length index /\
    forall i j, (i < length index)%nat -> (j < length index)%nat -> (nth i dyn 0%Z = nth j dyn 0%Z <-> nth i cz 0%Z = nth j cz 0%Z).
Proof.
  intros bins index cz w Hne L Hw Hle. cbn [param_dyn].
  assert (N : forall i, (i < length index)%nat -> nth i (repeat 1%Z (length index)) 0%Z = 1%Z).
  { intros i Hi. assert (In (nth i (repeat 1%Z (length index)) 0%Z) (repeat 1%Z (length index))) by (apply nth_In; rewrite repeat_length; auto).
    apply repeat_spec in H. exact H. }
  destruct (combine_manual_ok (repeat 1%Z (length index)) cz 1 w) as (d & E & Ld & _ & H).
  - rewrite repeat_length. auto.
  - destruct index; simpl; congruence.
  - split; [lia|]. intros x Hx. apply repeat_spec in Hx. subst x. simpl. lia.
  - exact Hw.
  - lia.
  - exists d. split; [exact E|]. rewrite repeat_length in Ld, H. split; [exact Ld|]. intros i j Hi Hj. rewrite (H i j Hi Hj), !N by auto. tauto.
Qed.
Print Assumptions C57_manual.

Example C57_example : param_dyn (fun _ => None) [1; 2; 3; 4]%Z FManual (Some (map str_Z [5; 12; 5; 0]%Z)) = Ok [105; 112; 105; 100]%Z.
Proof. reflexivity. Qed.

(** together with another frequency: same group iff same number there and
    same manual value *)
Theorem C57_manual_combined : forall base cz w1 w2, base <> [] -> length base = length cz ->
  fits_width w1 base -> fits_width w2 cz -> (w1 + w2 <= 15)%nat ->
  exists dyn, combine_manual base (map str_Z cz) = Ok dyn /\ length dyn = length base /\
    forall i j, (i < length base)%nat -> (j < length base)%nat ->
      (nth i dyn 0%Z = nth j dyn 0%Z <-> nth i base 0%Z = nth j base 0%Z /\ nth i cz 0%Z = nth j cz 0%Z).
Proof.
  intros base cz w1 w2 Hne L H1 H2 Hw. destruct (combine_manual_ok base cz w1 w2 L Hne H1 H2 Hw) as (d & A & B & _ & D). exists d. auto.
Qed.
Print Assumptions C57_manual_combined.

Example C57_example_combined : param_dyn (fun _ => None) [1; 2; 3; 4]%Z (FInt 2 true) (Some (map str_Z [5; 5; 5; 12]%Z)) = Ok [5; 5; 105; 112]%Z.
Proof. reflexivity. Qed.

(** decimal numbers (same number [k] of decimals): only the integer part counts *)
Theorem C57_decimals_truncated : forall base cz fr k w1 w2, base <> [] -> length base = length cz -> length fr = length cz ->
  fits_width w1 base -> fits_width w2 cz -> (w1 + w2 <= 15)%nat ->
  (forall r, In r fr -> length r = k /\ exists u, digits_val 0 r = Some u) ->
  exists dyn, combine_manual base (map (fun p => str_Z (fst p) ++ Dot :: snd p) (combine cz fr)) = Ok dyn /\ length dyn = length base /\
    forall i j, (i < length base)%nat -> (j < length base)%nat ->
      (nth i dyn 0%Z = nth j dyn 0%Z <-> nth i base 0%Z = nth j base 0%Z /\ nth i cz 0%Z = nth j cz 0%Z).
Proof. intros base cz fr k w1 w2 Hne L Lf H1 H2 Hw Hf. exact (combine_manual_frac base cz fr k w1 w2 L Lf Hne H1 H2 Hw Hf). Qed.
Print Assumptions C57_decimals_truncated.

Example C57_example_decimals :
  combine_manual [1; 1; 1]%Z [[Dig 1; Dot; Dig 0]; [Dig 2; Dot; Dig 5]; [Dig 2; Dot; Dig 7]]%Z = Ok [11; 12; 12]%Z.
Proof. reflexivity. Qed.

(** values 0.5 and 0.7 share a group; 17-digit numbers collapse; negative
    numbers are rejected *)
Theorem C57_refuted :
  (exists index a b dyn, a <> b /\ param_dyn (fun _ => None) index FManual (Some [a; b]) = Ok dyn /\ nth 0 dyn 0%Z = nth 1 dyn 0%Z) /\
  (exists index a b dyn, a <> b /\ param_dyn (fun _ => None) index FManual (Some (map str_Z [a; b])) = Ok dyn /\ nth 0 dyn 0%Z = nth 1 dyn 0%Z) /\
  (exists index a b, param_dyn (fun _ => None) index FManual (Some (map str_Z [a; b])) = Err ValueError).
Proof.
  split; [|split].
  - exists [1; 2]%Z, [Dig 0; Dot; Dig 5], [Dig 0; Dot; Dig 7]. eexists. split; [congruence|]. split; vm_compute; reflexivity.
  - exists [1; 2]%Z, 20230101120000000%Z, 20230101120000001%Z. eexists. split; [discriminate|]. split; vm_compute; reflexivity.
  - exists [1; 2]%Z, (-1)%Z, 1%Z. reflexivity.
Qed.
Print Assumptions C57_refuted.

(** ** C58: values of the parameters *)
(** There is one array of row numbers [idx] such that every array handed to
    the model is that array applied to its column; parameter values are
    taken from the group of the row; the entries that are not masked are all
    rows, each once. *)
Theorem C58_values : forall gi index, gi <> [] -> length index = length gi ->
  exists idx mask, idx_assigns gi = Ok idx /\ get_mask gi index = Ok mask /\
    (forall A (col : list A) d, length col = length gi -> get_data gi col = Ok (map (map (fun i => nth i col d)) idx)) /\
    (forall V dyn (val : list V) d, length dyn = length gi -> length val = length (uniq dyn) ->
       assignvals gi dyn val = Ok (map (map (fun i => Some (nth (rank dyn (nth i dyn 0%Z)) val d))) idx)) /\
    unmasked (concat idx) mask = processing_order gi /\ Permutation (processing_order gi) (seq 0 (length gi)).
Proof.
  intros gi index Hg L. eexists. eexists. split; [apply idx_assigns_ok; auto|]. split; [apply get_mask_ok; auto|].
  split; [intros; apply get_data_ok; auto|]. split; [|split; [apply visible_pad|apply processing_order_perm]].
  intros V dyn val d Ld Lv. unfold assignvals. rewrite idx_assigns_ok by auto. cbn [bind]. f_equal. unfold take2.
  apply map_ext_in. intros s Hs. apply map_ext_in. intros i Hi. apply step_values_ok; [|lia].
  apply In_nth with (d := []) in Hs. destruct Hs as (r & Hr & <-). apply In_nth with (d := 0%nat) in Hi. destruct Hi as (c & Hc & <-).
  rewrite Ld. apply pad_in; auto.
Qed.
Print Assumptions C58_values.

Example C58_example : assignvals [11; 12; 11; 22]%Z [1; 1; 1; 2]%Z ["a"; "b"]%string =
  Ok [[Some "a"; Some "a"]; [Some "a"; Some "a"]; [Some "b"; Some "b"]]%string /\
  get_data [11; 12; 11; 22]%Z ["s0"; "s1"; "s2"; "s3"]%string = Ok [["s0"; "s2"]; ["s1"; "s1"]; ["s3"; "s3"]]%string.
Proof. split; reflexivity. Qed.

(** ** C59: start values, bounds and the optimiser's vector *)
(** the number of groups is that of the distinct group numbers *)
Theorem C59_number_of_groups : forall V gi (p : param V), refines gi (p_dyn p) -> ngroups gi p = length (uniq (p_dyn p)).
Proof. intros V gi p H. apply nunique_dyn. exact H. Qed.
Print Assumptions C59_number_of_groups.

Theorem C59_alignment : forall V (mean : list V -> V) gi ps o, order mean gi ps = Ok o ->
  (forall k p, In (k, p) ps ->
     (1 <= ngroups gi p)%nat /\
     match p_start p with
     | SList l' => length l' = ngroups gi p
     | SAux col => length col = length gi /\ (p_freq p = FIndex -> length (uniq gi) = ngroups gi p)
     | _ => True
     end /\
     (length (p_lo p) = 1 /\ length (p_hi p) = 1 \/ length (p_lo p) = ngroups gi p /\ length (p_hi p) = ngroups gi p)%nat) ->
  let size := total (map (fun y => ngroups gi (snd (fst y))) o) in
  length (start_vector o) = size /\ length (lower_bounds gi o) = size /\ length (upper_bounds gi o) = size /\
  (forall x, length x = size -> exists parts, split_vector gi o x = Ok parts /\
     map fst parts = map (fun y => fst (fst y)) o /\ concat (map snd parts) = x /\
     map (fun q => length (snd q)) parts = map (fun y => ngroups gi (snd (fst y))) o) /\
  split_vector gi o (start_vector o) = Ok (map (fun y => (fst (fst y), snd y)) o) /\
  split_vector gi o (lower_bounds gi o) = Ok (map (fun y => (fst (fst y), fst (boundsvals gi (snd (fst y))))) o) /\
  split_vector gi o (upper_bounds gi o) = Ok (map (fun y => (fst (fst y), snd (boundsvals gi (snd (fst y))))) o).
Proof.
  intros V mean gi ps o E H size.
  assert (Hs : forall y, In y o -> length (snd y) = ngroups gi (snd (fst y))).
  { intros [[k p] l] Hy. destruct (order_in mean gi ps o E k p l Hy) as [Hin Hst].
    destruct (H k p Hin) as (_ & A & _). apply (startvals_length mean gi p l); auto. }
  assert (Hb : forall y, In y o -> length (fst (boundsvals gi (snd (fst y)))) = ngroups gi (snd (fst y)) /\
                                   length (snd (boundsvals gi (snd (fst y)))) = ngroups gi (snd (fst y))).
  { intros [[k p] l] Hy. destruct (order_in mean gi ps o E k p l Hy) as [Hin _].
    destruct (H k p Hin) as (A & _ & B). destruct (boundsvals_ok gi p B A) as (C & D & _). auto. }
  repeat split.
  - apply concat_length. exact Hs.
  - apply concat_length. intros; apply Hb; auto.
  - apply concat_length. intros; apply Hb; auto.
  - intros x Lx. apply split_vector_any. exact Lx.
  - apply split_vector_parts. exact Hs.
  - apply split_vector_parts. intros; apply Hb; auto.
  - apply split_vector_parts. intros; apply Hb; auto.
Qed.
Print Assumptions C59_alignment.

Example C59_example :
  let ps := [("tau"%string, mkparam FNone [1; 1; 1; 1]%Z (SScalar 5%Z) [0]%Z [9]%Z);
             ("omega"%string, mkparam FManual [1; 1; 2; 2]%Z (SScalar 3%Z) [1]%Z [8]%Z);
             ("N"%string, mkparam FManual [1; 2; 2; 1]%Z SNone [1]%Z [8]%Z)] in
  exists o, order (fun _ => 0%Z) [11; 12; 22; 21]%Z ps = Ok o /\ start_vector o = [5; 3; 3]%Z /\
    lower_bounds [11; 12; 22; 21]%Z o = [0; 1; 1]%Z /\ split_vector [11; 12; 22; 21]%Z o [100; 200; 300]%Z = Ok [("tau"%string, [100]); ("omega"%string, [200; 300])]%Z.
Proof. eexists. repeat split; vm_compute; reflexivity. Qed.

(** Lists of start values of the wrong length are not detected: the segments
    are shifted although all lengths agree. *)
Theorem C59_refuted : exists (ps : list (string * param Z)) gi o, order (fun _ => 0%Z) gi ps = Ok o /\
  length (start_vector o) = length (lower_bounds gi o) /\ length (start_vector o) = length (upper_bounds gi o) /\
  exists parts, split_vector gi o (start_vector o) = Ok parts /\ parts <> map (fun y => (fst (fst y), snd y)) o.
Proof.
  exists [("tau"%string, mkparam FManual [1; 2; 1; 2]%Z (SList [10; 20; 30]%Z) [0]%Z [9]%Z);
          ("omega"%string, mkparam FManual [1; 1; 2; 2]%Z (SList [40]%Z) [1]%Z [8]%Z)].
  exists [11; 21; 12; 22]%Z. eexists. split; [vm_compute; reflexivity|]. split; [reflexivity|]. split; [reflexivity|].
  eexists. split; [vm_compute; reflexivity|]. vm_compute. congruence.
Qed.
Print Assumptions C59_refuted.

(** "auxiliary" start values with "index" variability: one start value for
    each combined group instead of one for each date *)
Theorem C59_auxiliary_index_refuted : exists (p : param Z) gi l, p_freq p = FIndex /\
  startvals (fun x => hd 0%Z x) gi p = Ok (Some l) /\ length l <> ngroups gi p /\ refines gi (p_dyn p).
Proof.
  exists (mkparam FIndex [10; 10]%Z (SAux [4; 6]%Z) [0]%Z [9]%Z), [101; 102]%Z. eexists.
  split; [reflexivity|]. split; [vm_compute; reflexivity|]. split; [vm_compute; congruence|].
  split; [reflexivity|]. simpl. intros [|[|i]] [|[|j]]; simpl; intros; try lia; try discriminate.
Qed.
Print Assumptions C59_auxiliary_index_refuted.

(** ** C60: columns of the jacobian *)
(** [snd p i]: derivative of observation [i] with respect to the parameter
    with the group numbers [fst p].  If each parameter's groups are contiguous
    along the combined groups, the row of group [g] of a parameter holds the
    derivatives of exactly the observations of that group, zero for the
    others, in the order of the residuals ([processing_order]). *)
Theorem C60_jacobian_columns : forall V (zero : V) add, (forall x, add x zero = x) ->
  forall gi index idx mask (ps : list (list Z * (nat -> V))), gi <> [] -> length index = length gi ->
  idx_assigns gi = Ok idx -> get_mask gi index = Ok mask ->
  (forall p, In p ps -> refines gi (fst p) /\ contiguous (group_values gi (fst p))) ->
  jac_lsq zero add gi mask (map (fun p => (fst p, map (map (snd p)) idx)) ps) =
  Ok (concat (map (fun p => map (fun g => map (fun i => if Nat.eqb (rank (fst p) (nth i (fst p) 0%Z)) g then snd p i else zero)
                                              (processing_order gi))
                                (seq 0 (length (uniq (fst p))))) ps)).
Proof.
  intros V zero add Hz gi index idx mask ps Hg L Hi Hm H. rewrite idx_assigns_ok in Hi by auto. injection Hi as <-.
  apply (jac_lsq_ok zero add Hz gi index mask ps Hg L Hm H).
Qed.
Print Assumptions C60_jacobian_columns.

Example C60_example : exists mask, get_mask [11; 12; 11; 22]%Z [1; 2; 3; 4]%Z = Ok mask /\
  jac_lsq 0%Z Z.add [11; 12; 11; 22]%Z mask
    [([1; 1; 1; 2]%Z, [[50; 52]; [51; 51]; [53; 53]]%Z); ([1; 2; 1; 2]%Z, [[60; 62]; [61; 61]; [63; 63]]%Z)] =
  Ok [[50; 52; 51; 0]; [0; 0; 0; 53]; [60; 62; 0; 0]; [0; 0; 61; 63]]%Z.
Proof. eexists. split; vm_compute; reflexivity. Qed.

(** Group numbers that do not decrease along the dataset (all frequencies
    except "manual" on a sorted dataset, see C56) are contiguous. *)
Theorem C60_sorted_groups : forall V (zero : V) add, (forall x, add x zero = x) ->
  forall cols ws n gi index idx mask (D : list Z -> nat -> V), (1 <= n)%nat -> cols <> [] ->
  (forall c, In c cols -> length c = n /\ sorted c) -> Forall2 fits_width ws cols -> (total ws <= 18)%nat ->
  groupindex cols = Ok gi -> length index = n -> idx_assigns gi = Ok idx -> get_mask gi index = Ok mask ->
  jac_lsq zero add gi mask (map (fun c => (c, map (map (D c)) idx)) cols) =
  Ok (concat (map (fun c => map (fun g => map (fun i => if Nat.eqb (rank c (nth i c 0%Z)) g then D c i else zero)
                                              (processing_order gi))
                                (seq 0 (length (uniq c)))) cols)).
Proof.
  intros V zero add Hz cols ws n gi index idx mask D H1 Hne Hc Hw Ht Eg Li Ei Em.
  pose proof (C55_refines cols ws n gi H1 Hne (fun c Hin => proj1 (Hc c Hin)) Hw Ht Eg) as Hr.
  destruct (groupindex_ok cols ws n H1 Hne (fun c Hin => proj1 (Hc c Hin)) Hw Ht) as (gi' & E' & Lg & _).
  assert (gi' = gi) by congruence. subst gi'.
  pose proof (C60_jacobian_columns V zero add Hz gi index idx mask (map (fun c => (c, D c)) cols)) as J.
  rewrite !map_map in J. cbn [fst snd] in J. apply J; auto.
  - intros ->. simpl in Lg. lia.
  - congruence.
  - intros p Hp. apply in_map_iff in Hp. destruct Hp as (c & <- & Hin). cbn [fst]. split; [auto|].
    apply sorted_contiguous, group_values_sorted; [apply (proj1 (Hr c Hin))|apply Hc; auto].
Qed.
Print Assumptions C60_sorted_groups.

Example C60_example_sorted : exists gi idx mask, groupindex [[0; 0; 1; 1]; [0; 1; 1; 2]]%Z = Ok gi /\
  idx_assigns gi = Ok idx /\ get_mask gi [1; 2; 3; 4]%Z = Ok mask /\
  jac_lsq 0%Z Z.add gi mask (map (fun c => (c, map (map (fun i => Z.of_nat (5 + i))) idx)) [[0; 0; 1; 1]; [0; 1; 1; 2]]%Z) =
  Ok [[5; 6; 0; 0]; [0; 0; 7; 8]; [5; 0; 0; 0]; [0; 6; 7; 0]; [0; 0; 0; 8]]%Z.
Proof. eexists. eexists. eexists. repeat split; vm_compute; reflexivity. Qed.

(** Interleaved groups (possible with "manual" variability): derivatives are
    attributed to the wrong observation. *)
Theorem C60_refuted : exists gi dyn index idx mask (D : nat -> Z) k g, refines gi dyn /\
  idx_assigns gi = Ok idx /\ get_mask gi index = Ok mask /\
  exists rows, jac_lsq 0%Z Z.add gi mask [(dyn, map (map D) idx)] = Ok rows /\
    let i := nth k (processing_order gi) 0%nat in
    rank dyn (nth i dyn 0%Z) = g /\ nth k (nth g rows []) 0%Z <> D i.
Proof.
  exists [11; 12; 21; 22]%Z, [1; 2; 1; 2]%Z, [1; 2; 3; 4]%Z. eexists. eexists. exists (fun i => Z.of_nat (5 + i)), 1%nat, 1%nat.
  split; [split; [reflexivity|]|].
  - simpl. intros [|[|[|[|i]]]] [|[|[|[|j]]]]; simpl; intros; try lia; try discriminate; auto.
  - split; [vm_compute; reflexivity|]. split; [vm_compute; reflexivity|]. eexists. split; [vm_compute; reflexivity|].
    split; [reflexivity|]. vm_compute. discriminate.
Qed.
Print Assumptions C60_refuted.
