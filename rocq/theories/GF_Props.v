(** Properties C25-C34: rt1/general_functions.py.
    Only property theorems, examples and assumption listings. *)
From Coq Require Import List ZArith Reals Bool Lia Lra Permutation Sorted Arith.
From Verif Require Import Base Base_Proofs GF_Model GF_Proofs.
Import ListNotations.

(** ** C25 unit conversion *)
(** what a value in unit system (dB, sig0) means as a linear intensity (independent of the code) *)
Definition to_linear (dB : bool) (v : R) : R := if dB then exp (v / 10 * ln 10) else v.
Definition intensity (inc : R) (dB sig0 : bool) (v : R) : R :=
  if sig0 then (to_linear dB v / (4 * PI * cos inc))%R else to_linear dB v.
(** a value for which a logarithm may be taken *)
Definition positive_value (dB : bool) (v : R) : Prop := dB = true \/ (0 < v)%R.

Theorem C25_convert_preserves_intensity : forall (v inc : R) (dB sig0 dB' sig0' : bool),
  (0 < cos inc)%R -> positive_value dB v ->
  intensity inc dB' sig0' (dBsig0convert v inc dB' sig0' dB sig0) = intensity inc dB sig0 v
  /\ positive_value dB' (dBsig0convert v inc dB' sig0' dB sig0).
Proof.
  intros v inc dB sig0 dB' sig0' Hc Hp.
  assert (Hpi := PI_RGT_0). assert (Hln := ln10_pos).
  assert (H4 : (0 < 4 * PI * cos inc)%R) by (apply Rmult_lt_0_compat; lra).
  assert (HP := pow10_pos (v / 10)).
  assert (HQ : (0 < pow10 (v / 10) / (4 * PI * cos inc))%R) by (apply Rdiv_lt_0_compat; auto).
  assert (HS : (0 < 4 * PI * cos inc * pow10 (v / 10))%R) by (apply Rmult_lt_0_compat; auto).
  assert (Hpow : forall x, (exp (x / 10 * ln 10) = pow10 (x / 10))%R) by reflexivity.
  unfold positive_value in *.
  destruct dB, sig0, dB', sig0'; unfold intensity, to_linear, dBsig0convert; cbn [negb andb Bool.eqb];
    rewrite ?Hpow;
    (destruct Hp as [Hp|Hp]; [try discriminate|]);
    rewrite ?pow10_log10 by (auto; first [apply Rdiv_lt_0_compat; auto | apply Rmult_lt_0_compat; auto]);
    (split; [try reflexivity; try (field; lra) | auto]);
    try (right; first [auto; apply Rdiv_lt_0_compat; auto | apply Rmult_lt_0_compat; auto]).
Qed.
Print Assumptions C25_convert_preserves_intensity.

Theorem C25_convert_compose : forall (v inc : R) (dB sig0 dB' sig0' dB'' sig0'' : bool),
  (0 < cos inc)%R -> positive_value dB v ->
  dBsig0convert (dBsig0convert v inc dB' sig0' dB sig0) inc dB'' sig0'' dB' sig0'
  = dBsig0convert v inc dB'' sig0'' dB sig0.
Proof.
  intros v inc dB sig0 dB' sig0' dB'' sig0'' Hc Hp.
  assert (Hpi := PI_RGT_0). assert (Hln := ln10_pos).
  assert (H4 : (0 < 4 * PI * cos inc)%R) by (apply Rmult_lt_0_compat; lra).
  assert (HP := pow10_pos (v / 10)).
  assert (HQ : (0 < pow10 (v / 10) / (4 * PI * cos inc))%R) by (apply Rdiv_lt_0_compat; auto).
  assert (HS : (0 < 4 * PI * cos inc * pow10 (v / 10))%R) by (apply Rmult_lt_0_compat; auto).
  assert (HA : forall x : R, (4 * PI * cos inc * (x / (4 * PI * cos inc)) = x)%R) by (intros; field; lra).
  assert (HB : forall x : R, (4 * PI * cos inc * x / (4 * PI * cos inc) = x)%R) by (intros; field; lra).
  unfold positive_value in *.
  destruct dB, sig0, dB', sig0', dB'', sig0''; unfold dBsig0convert; cbn [negb andb Bool.eqb];
    (destruct Hp as [Hp|Hp]; [try discriminate|]);
    rewrite ?pow10_log10 by (auto; first [apply Rdiv_lt_0_compat; auto | apply Rmult_lt_0_compat; auto]);
    rewrite ?log10_pow10, ?HA, ?HB, ?log10_pow10; reflexivity.
Qed.
Print Assumptions C25_convert_compose.

Theorem C25_convert_roundtrip : forall (v inc : R) (dB sig0 dB' sig0' : bool),
  (0 < cos inc)%R -> positive_value dB v ->
  dBsig0convert (dBsig0convert v inc dB' sig0' dB sig0) inc dB sig0 dB' sig0' = v.
Proof.
  intros. rewrite C25_convert_compose by auto. unfold dBsig0convert.
  rewrite !Bool.eqb_reflx. reflexivity.
Qed.
Print Assumptions C25_convert_roundtrip.
(** where no logarithm is taken the values may have any sign: the identity, and between linear units *)
Theorem C25_no_logarithm : forall (v inc : R) (dB sig0 sig0' sig0'' : bool),
  dBsig0convert v inc dB sig0 dB sig0 = v /\
  ((0 < cos inc)%R -> dBsig0convert (dBsig0convert v inc false sig0' false sig0) inc false sig0'' false sig0' = dBsig0convert v inc false sig0'' false sig0).
Proof.
  intros v inc dB sig0 sig0' sig0''. split; [unfold dBsig0convert; now rewrite !Bool.eqb_reflx|]. intros C. pose proof PI_RGT_0.
  unfold dBsig0convert. destruct sig0, sig0', sig0''; cbn; try reflexivity; field; lra.
Qed.
Print Assumptions C25_no_logarithm.

(** hypotheses are met e.g. by -12 dB sigma0 at inc = 0.  *)
Example C25_example : (0 < cos 0)%R /\ positive_value true (-12) /\ positive_value false 1.
Proof. rewrite cos_0. unfold positive_value. split; [lra|]. split; [left; auto|right; lra]. Qed.

(** ** C26 rectangularize *)
Theorem C26_rectangularize : forall (A : Type) (array : list (list A)),
  array <> [] -> (forall s, In s array -> s <> []) ->
  exists rows masks dim,
    rectangularize_mask array None = Ok (rows, masks) /\ rectangularize array None = Ok rows /\
    (* dim is the length of the longest row *)
    (forall s, In s array -> length s <= dim) /\ (exists s, In s array /\ length s = dim) /\
    length rows = length array /\ length masks = length array /\
    forall i s, nth_error array i = Some s ->
      exists row mask, nth_error rows i = Some row /\ nth_error masks i = Some mask /\
        length row = dim /\ length mask = dim /\
        (forall j, j < length s -> nth_error row j = nth_error s j /\ nth_error mask j = Some false) /\
        (forall j, length s <= j < dim ->
            nth_error row j = nth_error s (length s - 1) /\ nth_error mask j = Some true) /\
        (* dropping the masked entries returns the row *)
        map fst (filter (fun p => negb (snd p)) (combine row mask)) = s.
Proof.
  intros A array Hne Hrows.
  destruct array as [|[|d s0] a0] eqn:Ea; [congruence|exfalso; apply (Hrows []); simpl; auto|].
  rewrite <- Ea in *.
  exists (map (fun s => s ++ repeat (last s d) (maxlen array - length s)) array),
         (map (mask_row (maxlen array)) array), (maxlen array).
  pose proof (rectangularize_ok array Hne Hrows d) as E.
  split; [exact E|]. split.
  { unfold rectangularize_mask in E. unfold rectangularize.
    destruct (rect_dim array None); simpl in *; [|discriminate].
    destruct (mapM (rect_row a) array); simpl in *; [congruence|discriminate]. }
  split; [intros; apply maxlen_ge; auto|]. split; [apply maxlen_attained; auto|].
  rewrite !map_length. split; [reflexivity|]. split; [reflexivity|].
  intros i s Hi. rewrite !nth_error_map, Hi. simpl.
  assert (Hs : In s array) by (eapply nth_error_In; eauto).
  assert (Hle := maxlen_ge array s Hs). assert (Hsn := Hrows s Hs).
  do 2 eexists. split; [reflexivity|]. split; [reflexivity|].
  split; [rewrite app_length, repeat_length; lia|].
  split; [unfold mask_row; rewrite app_length, !repeat_length; lia|].
  split; [|split].
  - intros j Hj. rewrite nth_error_app1 by lia. split; [reflexivity|].
    unfold mask_row. rewrite nth_error_app1 by (rewrite repeat_length; lia).
    apply nth_error_repeat; auto.
  - intros j Hj. rewrite nth_error_app2 by lia. split.
    + rewrite nth_error_repeat by lia. destruct s as [|x s]; [congruence|].
      rewrite nth_error_nth' with (d := d) by (simpl; lia). f_equal.
      simpl length. rewrite Nat.sub_succ, Nat.sub_0_r.
      clear. revert x. induction s as [|y s IH]; intros x; [reflexivity|]. exact (IH y).
    + unfold mask_row. rewrite nth_error_app2 by (rewrite repeat_length; lia).
      rewrite repeat_length. apply nth_error_repeat. lia.
  - apply (unmask_row (maxlen array) s); auto.
Qed.
Print Assumptions C26_rectangularize.

Theorem C26_rectangularize_empty_row_raises : forall (A : Type) (array : list (list A)) dim,
  In [] array -> exists e, rectangularize array dim = Err e.
Proof. intros. apply rectangularize_empty_row; auto. Qed.
Print Assumptions C26_rectangularize_empty_row_raises.

Example C26_example :
  rectangularize_mask [[1;2;3];[1];[1;2]] None =
  Ok ([[1;2;3];[1;1;1];[1;2;2]], [[false;false;false];[false;true;true];[false;false;true]]).
Proof. reflexivity. Qed.

(** ** C27 meandatetime *)
Theorem C27_mean_in_range : forall (x : list Z) (m lo hi : Z), meandatetime x = Ok m ->
  (forall t, In t x -> lo <= t <= hi)%Z -> (lo <= m <= hi)%Z.
Proof. exact meandatetime_range. Qed.
Print Assumptions C27_mean_in_range.

(** |n*m - sum x| <= (n-1)^2, i.e. m is less than n nanoseconds away from the mean *)
Theorem C27_mean_error : forall (x : list Z) (m : Z), meandatetime x = Ok m ->
  let n := Z.of_nat (length x) in
  (Z.abs (n * m - fold_right Z.add 0 x) <= (n - 1) * (n - 1))%Z.
Proof. exact meandatetime_error. Qed.
Print Assumptions C27_mean_error.

Theorem C27_mean_exact : forall (x0 : Z) (r : list Z) (m : Z), meandatetime (x0 :: r) = Ok m ->
  let n := Z.of_nat (length (x0 :: r)) in
  (forall t, In t r -> Z.divide n (x0 - t)) -> (n * m = fold_right Z.add 0 (x0 :: r))%Z.
Proof. exact meandatetime_exact. Qed.
Print Assumptions C27_mean_exact.

Theorem C27_mean_defined_and_shift : forall (x : list Z) (c : Z), x <> [] ->
  exists m, meandatetime x = Ok m /\ meandatetime (map (fun t => (t + c)%Z) x) = Ok (m + c)%Z
  /\ (length x = 1 -> x = [m]).
Proof.
  intros x c Hx. assert (exists m, meandatetime x = Ok m) as [m E].
  { destruct x as [|x0 [|x1 r]]; [congruence|eexists; reflexivity|eexists; apply mean_shape]. }
  exists m. split; [exact E|]. split; [apply meandatetime_shift; auto|].
  destruct x as [|x0 [|x1 r]]; simpl in *; congruence.
Qed.
Print Assumptions C27_mean_defined_and_shift.

Example C27_example : meandatetime [100; 0; 7]%Z = Ok 36%Z /\ (100 + 0 + 7 = 3 * 36 - 1)%Z.
Proof. split; reflexivity. Qed.

(** ** C28 pairwise *)
Theorem C28_windows : forall (A : Type) (s : list A) (k : nat), 1 <= k ->
  length (pairwise s k) = length s + 1 - k /\
  forall i, i < length s + 1 - k -> nth_error (pairwise s k) i = Some (firstn k (skipn i s)).
Proof.
  intros A s k Hk. rewrite pairwise_windows by auto. unfold windows.
  split; [rewrite map_length, seq_length; reflexivity|].
  intros i Hi. rewrite nth_error_map, nth_error_nth' with (d := 0) by (rewrite seq_length; auto).
  rewrite seq_nth by auto. reflexivity.
Qed.
Print Assumptions C28_windows.

Example C28_example : pairwise [1;2;3;4;5] 3 = [[1;2;3];[2;3;4];[3;4;5]] /\ pairwise [1;2] 3 = [].
Proof. split; reflexivity. Qed.

(** ** C29 split_into *)
Theorem C29_split_sizes : forall (A : Type) (l : list A) (ns : list nat),
  exists out, split_into l (map (fun n => Some (Z.of_nat n)) ns) = Ok out /\
    length out = length ns /\
    concat out = firstn (fold_right plus 0 ns) l /\
    (forall i, i < length ns ->
       nth i out [] = firstn (nth i ns 0) (skipn (fold_right plus 0 (firstn i ns)) l)).
Proof. intros. apply split_into_sizes. Qed.
Print Assumptions C29_split_sizes.

Theorem C29_split_none_takes_rest : forall (A : Type) (l : list A) (ns : list nat) rest,
  exists out, split_into l (map (fun n => Some (Z.of_nat n)) ns ++ None :: rest) = Ok out /\
    length out = S (length ns) /\ concat out = l /\
    last out [] = skipn (fold_right plus 0 ns) l.
Proof. intros. apply split_into_none. Qed.
Print Assumptions C29_split_none_takes_rest.

(** splitting by the lengths of given pieces is the inverse of concatenation *)
Theorem C29_split_roundtrip : forall (A : Type) (pieces : list (list A)),
  split_into (concat pieces) (map (fun p => Some (Z.of_nat (length p))) pieces) = Ok pieces.
Proof.
  induction pieces as [|p ps IH]; [reflexivity|].
  cbn [map split_into concat]. destruct (Z.ltb_spec (Z.of_nat (length p)) 0); [lia|].
  rewrite Nat2Z.id, skipn_app, skipn_all, Nat.sub_diag. cbn [app skipn].
  rewrite IH. cbn [bind]. rewrite firstn_app, Nat.sub_diag, firstn_all. cbn [firstn].
  rewrite app_nil_r. reflexivity.
Qed.
Print Assumptions C29_split_roundtrip.

Theorem C29_split_negative_raises : forall (A : Type) (l : list A) pre z post,
  Forall (fun s => s <> None) pre -> (z < 0)%Z -> split_into l (pre ++ Some z :: post) = Err ValueError.
Proof. intros. apply split_into_negative; auto. Qed.
Print Assumptions C29_split_negative_raises.

Example C29_example :
  split_into [1;2;3;4;5;6;7] [Some 2; Some 3; None; Some 9]%Z = Ok [[1;2];[3;4;5];[6;7]].
Proof. reflexivity. Qed.

(** ** C30 scale *)
Theorem C30_scale : forall (x : list R) (c d lo hi : R),
  In lo x -> In hi x -> (forall v, In v x -> lo <= v <= hi)%R -> (lo < hi)%R -> (c <= d)%R ->
  exists y, scale x (c, d) = Ok y /\ length y = length x /\
    (forall i v w, nth_error x i = Some v -> nth_error y i = Some w ->
        w = (c + (v - lo) / (hi - lo) * (d - c))%R /\ (c <= w <= d)%R /\
        (v = lo -> w = c) /\ (v = hi -> w = d)) /\
    (forall i j v v' w w', nth_error x i = Some v -> nth_error x j = Some v' ->
        nth_error y i = Some w -> nth_error y j = Some w' -> (c < d)%R -> (v < v')%R -> (w < w')%R).
Proof.
  intros x c d lo hi Hlo Hhi Hb Hlt Hcd.
  destruct x as [|x0 r]; [destruct Hlo|].
  assert (Emin : rmin_list x0 r = lo).
  { destruct (rmin_list_spec x0 r) as [H1 H2]. apply Rle_antisym; [apply H1; auto|apply Hb; auto]. }
  assert (Emax : rmax_list x0 r = hi).
  { destruct (rmax_list_spec x0 r) as [H1 H2]. apply Rle_antisym; [apply Hb; auto|apply H1; auto]. }
  eexists. split; [reflexivity|]. rewrite Emin, Emax. split; [apply map_length|].
  assert (Hmono : forall v v', (c < d)%R -> (v < v')%R -> (scale1 (lo, hi) (c, d) v < scale1 (lo, hi) (c, d) v')%R).
  { intros v v' Hcd' Hv. rewrite !scale1_affine by lra.
    apply Rplus_lt_compat_l. apply Rmult_lt_compat_r; [lra|].
    apply Rmult_lt_compat_r; [apply Rinv_0_lt_compat|]; lra. }
  assert (Hlen := map_length (scale1 (lo, hi) (c, d)) (x0 :: r)).
  split.
  - intros i v w Hv Hw. rewrite nth_error_map, Hv in Hw. cbn [option_map] in Hw. injection Hw as <-.
    assert (Hin : In v (x0 :: r)) by (eapply nth_error_In; eauto).
    specialize (Hb v Hin). rewrite scale1_affine by lra.
    assert (0 <= (v - lo) / (hi - lo) <= 1)%R.
    { split; [apply Rmult_le_pos; [lra|left; apply Rinv_0_lt_compat; lra]|].
      apply Rmult_le_reg_r with (hi - lo)%R; [lra|]. unfold Rdiv. rewrite Rmult_assoc, Rinv_l by lra. lra. }
    split; [reflexivity|]. split; [nra|]. split; intros ->; field; lra.
  - intros i j v v' w w' Hv Hv' Hw Hw' Hcd' Hvv.
    rewrite nth_error_map, Hv in Hw. rewrite nth_error_map, Hv' in Hw'. cbn [option_map] in *.
    injection Hw as <-. injection Hw' as <-. apply Hmono; auto.
Qed.
Print Assumptions C30_scale.

(** scaling the scaled data back to the original range recovers it *)
Theorem C30_scale_back : forall (x y : list R) (c d lo hi : R),
  In lo x -> In hi x -> (forall v, In v x -> lo <= v <= hi)%R -> (lo < hi)%R -> (c < d)%R ->
  scale x (c, d) = Ok y -> scale y (lo, hi) = Ok x.
Proof.
  intros x y c d lo hi Hlo Hhi Hb Hlt Hcd E.
  destruct (C30_scale x c d lo hi Hlo Hhi Hb Hlt ltac:(lra)) as (y' & E' & Hlen & Hy & _).
  rewrite E in E'. injection E' as <-.
  assert (Hval : forall v, In v x -> In (c + (v - lo) / (hi - lo) * (d - c))%R y).
  { intros v Hv. apply In_nth_error in Hv as [i Hi].
    assert (Hs : nth_error y i <> None).
    { apply nth_error_Some. rewrite Hlen. apply nth_error_Some. congruence. }
    destruct (nth_error y i) as [w|] eqn:Ew; [|congruence].
    destruct (Hy i v w Hi Ew) as (-> & _). eapply nth_error_In; eauto. }
  assert (Hc : In c y).
  { specialize (Hval lo Hlo). replace (c + (lo - lo) / (hi - lo) * (d - c))%R with c in Hval; auto. field; lra. }
  assert (Hd : In d y).
  { specialize (Hval hi Hhi). replace (c + (hi - lo) / (hi - lo) * (d - c))%R with d in Hval; auto. field; lra. }
  assert (Hby : forall w, In w y -> (c <= w <= d)%R).
  { intros w Hw. apply In_nth_error in Hw as [i Hi].
    assert (Hs : nth_error x i <> None).
    { apply nth_error_Some. rewrite <- Hlen. apply nth_error_Some. congruence. }
    destruct (nth_error x i) as [v|] eqn:Ev; [|congruence].
    destruct (Hy i v w Ev Hi) as (_ & H & _). exact H. }
  destruct (C30_scale y lo hi c d Hc Hd Hby Hcd ltac:(lra)) as (z & Ez & Hlen2 & Hz & _).
  rewrite Ez. f_equal.
  apply nth_ext with (d := 0%R) (d' := 0%R); [lia|].
  intros n Hn.
  assert (nth_error z n = Some (nth n z 0%R)) as E1 by (apply nth_error_nth'; auto).
  assert (nth_error y n = Some (nth n y 0%R)) as E2 by (apply nth_error_nth'; lia).
  assert (nth_error x n = Some (nth n x 0%R)) as E3 by (apply nth_error_nth'; lia).
  destruct (Hz _ _ _ E2 E1) as (-> & _). destruct (Hy _ _ _ E3 E2) as (-> & _). field. lra.
Qed.
Print Assumptions C30_scale_back.

Example C30_example : In 1%R [3;1;2]%R /\ In 3%R [3;1;2]%R /\ (forall v, In v [3;1;2]%R -> 1 <= v <= 3)%R /\ (1 < 3)%R /\ (0 <= 1)%R.
Proof. repeat split; simpl; auto; try lra. all: destruct H as [<-|[<-|[<-|[]]]]; lra. Qed.

(** ** C31 dt_to_hms *)
Theorem C31_dt_to_hms : forall days secs : Z, (0 <= secs < 86400)%Z ->
  exists h m s, dt_to_hms days secs = (days, h, m, s) /\
  (0 <= h < 24)%Z /\ (0 <= m < 60)%Z /\ (0 <= s < 60)%Z /\
  (days * 86400 + h * 3600 + m * 60 + s = days * 86400 + secs)%Z /\
  (forall h' m' s', 0 <= h' < 24 -> 0 <= m' < 60 -> 0 <= s' < 60 ->
     h' * 3600 + m' * 60 + s' = secs -> (h', m', s') = (h, m, s))%Z.
Proof.
  intros days secs H.
  destruct (dt_to_hms days secs) as [[[d h] m] s] eqn:E.
  destruct (dt_to_hms_spec days secs H d h m s E) as (-> & Hh & Hm & Hs & Ht).
  exists h, m, s. repeat split; try lia.
  intros h' m' s' H1 H2 H3 H4.
  assert (h' = h) by lia. subst. assert (m' = m) by lia. subst. assert (s' = s) by lia. subst. reflexivity.
Qed.
Print Assumptions C31_dt_to_hms.

Example C31_example : dt_to_hms (-1) 86399 = (-1, 23, 59, 59)%Z.
Proof. reflexivity. Qed.

(** ** C32 groupby_unsorted *)
Theorem C32_groups : forall (A K B : Type) (keq : forall x y : K, {x = y} + {x <> y})
  (key : A -> K) (get : A -> B) (a : list A),
  let g := groupby_unsorted keq key get a in
  (* keys exactly once, exactly the occurring ones *)
  NoDup (keys g) /\ (forall k, In k (keys g) <-> exists x, In x a /\ key x = k) /\
  (* every group holds exactly the elements with that key, in input order *)
  (forall k l, In (k, l) g ->
      l = map get (filter (fun x => if keq (key x) k then true else false) a) /\ l <> []) /\
  (* nothing lost, nothing duplicated *)
  Permutation (concat (map snd g)) (map get a).
Proof.
  intros A K B keq key get a g.
  assert (Hk : keys g = first_occ keq [] (map key a)) by apply groupby_keys.
  assert (Hnd : NoDup (keys g)) by (rewrite Hk; apply NoDup_first_occ).
  repeat split; auto.
  - rewrite Hk, in_first_occ. intros [H _]. apply in_map_iff in H as (x & E & Hx). eauto.
  - intros (x & Hx & <-). rewrite Hk, in_first_occ. split; [apply in_map; auto|simpl; tauto].
  - apply dget_in_nodup with (keq := keq) in H; [|exact Hnd]. unfold g in H. rewrite groupby_get in H.
    destruct (map get _) eqn:E; congruence.
  - apply dget_in_nodup with (keq := keq) in H; [|exact Hnd]. unfold g in H. rewrite groupby_get in H.
    destruct (map get _) eqn:E; congruence.
  - apply groupby_perm.
Qed.
Print Assumptions C32_groups.

(** keys appear in order of first occurrence: processing more elements only appends keys *)
Theorem C32_first_occurrence_order : forall (A K B : Type) (keq : forall x y : K, {x = y} + {x <> y})
  (key : A -> K) (get : A -> B) (a : list A) (x : A),
  keys (groupby_unsorted keq key get (a ++ [x])) =
  keys (groupby_unsorted keq key get a) ++
    (if in_dec keq (key x) (map key a) then [] else [key x]).
Proof.
  intros. unfold groupby_unsorted. rewrite fold_left_app. cbn [fold_left].
  rewrite keys_setdefault.
  change (fold_left (fun d item => setdefault_append keq (key item) (get item) d) a [])
    with (groupby_unsorted keq key get a).
  rewrite groupby_keys.
  destruct (in_dec keq (key x) (first_occ keq [] (map key a))) as [i|i];
  destruct (in_dec keq (key x) (map key a)) as [j|j]; try rewrite app_nil_r; auto.
  - apply in_first_occ in i. tauto.
  - exfalso. apply i, in_first_occ. simpl; tauto.
Qed.
Print Assumptions C32_first_occurrence_order.

Theorem C32_sorted : forall (A K B : Type) (keq : forall x y : K, {x = y} + {x <> y})
  (leb : K -> K -> bool) (key : A -> K) (get : A -> B) (a : list A),
  (forall x y, leb x y = true \/ leb y x = true) ->
  (forall x y z, leb x y = true -> leb y z = true -> leb x z = true) ->
  let g := groupby_sorted keq leb key get a in
  Permutation g (groupby_unsorted keq key get a) /\
  StronglySorted (fun p q => leb (fst p) (fst q) = true) g.
Proof.
  intros. split; [apply sort_items_perm|apply sort_items_sorted; auto].
Qed.
Print Assumptions C32_sorted.

Example C32_example :
  groupby_unsorted Nat.eq_dec (fun x => x mod 3) (fun x => 10 * x) [4;2;7;3;5]
  = [(1,[40;70]);(2,[20;50]);(0,[30])].
Proof. reflexivity. Qed.

(** ** C33 find_missing *)
Theorem C33_find_missing : forall (lst : list Z),
  (forall i, ~ In (find_missing lst i) lst) /\
  (forall i j, i < j -> (find_missing lst i < find_missing lst j)%Z) /\
  (forall N, length (find_missing_N lst N) = N /\ NoDup (find_missing_N lst N) /\
     forall x, In x (find_missing_N lst N) -> ~ In x lst).
Proof.
  intros lst. split; [intros; apply find_missing_fresh|]. split; [intros; apply find_missing_increasing; auto|].
  intros N. unfold find_missing_N. split; [rewrite map_length, seq_length; reflexivity|]. split.
  - assert (Hinj : forall i j, find_missing lst i = find_missing lst j -> i = j).
    { intros i j E. destruct (Nat.lt_trichotomy i j) as [H|[H|H]]; auto;
      apply (find_missing_increasing lst) in H; lia. }
    generalize 0 as s. induction N as [|N IH]; intros s; simpl; constructor; auto.
    rewrite in_map_iff. intros (i & E & Hi). apply Hinj in E. apply in_seq in Hi. lia.
  - intros x Hx. apply in_map_iff in Hx as (i & <- & _). apply find_missing_fresh.
Qed.
Print Assumptions C33_find_missing.

(** for non-empty lists of non-negative numbers every unused number is eventually yielded,
    in increasing order: gaps are filled first and none is left out *)
Theorem C33_find_missing_fills_gaps : forall (lst : list Z),
  (forall y, In y lst -> (0 <= y)%Z) -> lst <> [] ->
  (forall i, (0 <= find_missing lst i)%Z) /\
  (forall x, (0 <= x)%Z -> ~ In x lst -> exists i, find_missing lst i = x).
Proof.
  intros lst Hp Hn. split; intros; [apply find_missing_nonneg|apply find_missing_complete]; auto.
Qed.
Print Assumptions C33_find_missing_fills_gaps.

(** for the empty list the documented start at 0 is missed: 0 is never yielded *)
Theorem C33_find_missing_empty_starts_at_one : forall i, find_missing [] i = (1 + Z.of_nat i)%Z.
Proof. intros i. unfold find_missing. simpl. rewrite Nat.sub_0_r. lia. Qed.
Print Assumptions C33_find_missing_empty_starts_at_one.

Example C33_example : find_missing_N [2;5;6;10]%Z 7 = [0;1;3;4;7;8;9]%Z /\ find_missing_N [0;1;2]%Z 3 = [3;4;5]%Z.
Proof. split; reflexivity. Qed.

(** ** C34 chunkit *)
Theorem C34_chunkit : forall (A : Type) (arr : list A) (c : Z), (0 < c)%Z ->
  exists out, chunkit arr c = Ok out /\ concat out = arr /\
    (* number of chunks is the rounded-up quotient *)
    (Z.of_nat (length out) * c - c < Z.of_nat (length arr) <= Z.of_nat (length out) * c \/ arr = [] /\ out = [])%Z /\
    (forall i ch, nth_error out i = Some ch ->
        ch <> [] /\ (Z.of_nat (length ch) <= c)%Z /\ (S i < length out -> Z.of_nat (length ch) = c)).
Proof.
  intros A arr c Hc. destruct (chunkit_spec arr c Hc) as (out & E & Hcc & Hlen & Hi).
  exists out. repeat split; auto; try (eapply Hi; eauto).
  rewrite Hlen. destruct (ceil_div_cover (Z.of_nat (length arr)) c Hc ltac:(lia)).
  destruct (ceil_div_bounds (Z.of_nat (length arr)) c Hc ltac:(lia)) as [H1|[H1 H2]].
  - left; lia.
  - right. split; [destruct arr; auto; simpl in H1; lia|]. rewrite H2 in Hlen. destruct out; auto; simpl in Hlen; lia.
Qed.
Print Assumptions C34_chunkit.

Theorem C34_chunkit_zero_raises : forall (A : Type) (arr : list A), chunkit arr 0 = Err ZeroDivisionError.
Proof. reflexivity. Qed.
Print Assumptions C34_chunkit_zero_raises.
(** a negative size silently yields nothing *)
Theorem C34_chunkit_negative : forall (A : Type) (arr : list A) (c : Z), (c < 0)%Z -> chunkit arr c = Ok [].
Proof.
  intros A arr c H. unfold chunkit. destruct (Z.eqb_spec c 0) as [E|_]; [lia|]. f_equal. cbv zeta. set (n := Z.of_nat (length arr)). assert (N : (0 <= n)%Z) by (unfold n; lia).
  assert (L : ((if negb (n mod c =? 0) then n / c + 1 else n / c) <= 0)%Z).
  { pose proof (Z.div_mod n c ltac:(lia)). pose proof (Z.mod_neg_bound n c H). destruct (Z.eqb_spec (n mod c) 0); cbn [negb]; nia. }
  unfold zrange. replace (Z.to_nat _) with 0 by lia. reflexivity.
Qed.
Print Assumptions C34_chunkit_negative.

Example C34_example : chunkit [1;2;3;4;5] 2 = Ok [[1;2];[3;4];[5]].
Proof. reflexivity. Qed.
