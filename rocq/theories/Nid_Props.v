(** C220: the IDs that get_nids_iter returns. *)
From Coq Require Import String Arith ZArith Bool List Lia.
From Verif Require Import Base Pag_Model Pag_Spec Pag_Props Nid_Model.
Import ListNotations.

(** The documented lists of IDs are a TypeError (strings, too), arrays of several IDs a ValueError. *)
Theorem C220_list_refuted : forall V multi sid (tbl : list (prow V)) ids start,
  (forall l, get_nids_iter_any multi sid tbl ids (NList l) start = ([], Some TypeError)) /\
  (forall s, get_nids_iter_any multi sid tbl ids (NStr s) start = ([], Some TypeError)) /\
  (forall x y l, get_nids_iter_any multi sid tbl ids (NArr x (y :: l)) start = ([], Some ValueError)).
Proof. intros. repeat split; reflexivity. Qed.
Print Assumptions C220_list_refuted.

(** An array of one ID gives one page with exactly the rows of this ID if its number is less than the number of IDs ... *)
Theorem C220_array : forall V multi sid (tbl : list (prow V)) ids start x,
  numeric tbl -> In x ids -> (x < Z.of_nat (length ids))%Z ->
  exists p, get_nids_iter_any multi sid tbl ids (NArr x []) start = ([p], None) /\ map content p = rows_of tbl [x] /\
    (forall r, In r p -> p_named r = sid).
Proof.
  intros V multi sid tbl ids start x Hn Hx Hl. cbn [get_nids_iter_any]. replace (x <? Z.of_nat (length ids))%Z with true by (symmetry; now apply Z.ltb_lt).
  unfold get_vals_with_IDs. change (chunks [x] 1) with (@Ok (list (list Z)) [[x]]). cbn [bind map].
  cbn [page_loop]. cbn [Nat.div Nat.eqb Nat.modulo app Nat.add negb Nat.divmod fst snd Nat.sub]. cbn [concat]. rewrite app_nil_r.
  assert (F : map content (read_ids tbl [x]) = rows_of tbl [x]).
  { clear - tbl. unfold read_ids, rows_of. induction tbl as [|r t IH]; [reflexivity|]. cbn [filter map]. change (fst (content r)) with (p_id r). destruct (existsb (Z.eqb (p_id r)) [x]); cbn [map]; now rewrite IH. }
  assert (N : forall r, In r (read_ids tbl [x]) -> p_named r = false /\ p_id r = x).
  { intros r H. unfold read_ids in H. apply filter_In in H. destruct H as [H E]. split; [now apply Hn|]. cbn in E. apply orb_true_iff in E. destruct E as [E|E]; [now apply Z.eqb_eq|discriminate]. }
  assert (Ex : existsb (Z.eqb x) ids = true) by (apply existsb_exists; exists x; split; [exact Hx|apply Z.eqb_refl]).
  unfold set_names. destruct sid.
  - assert (M : forall l : list (prow V), (forall r, In r l -> p_named r = false /\ p_id r = x) ->
      mapM (fun r => if p_named r then Err KeyError else if existsb (Z.eqb (p_id r)) ids then Ok (mkrow (p_id r) true (p_val r)) else Err KeyError) l
      = Ok (map (fun r => mkrow (p_id r) true (p_val r)) l)).
    { induction l as [|r l IH]; intros H; [reflexivity|]. cbn [mapM map]. destruct (H r (or_introl eq_refl)) as [-> E]. rewrite E, Ex. cbn [bind].
      rewrite IH by (intros q Hq; apply H; now right). reflexivity. }
    rewrite (M _ N). eexists. split; [reflexivity|]. split.
    + rewrite map_map. rewrite <- F. apply map_ext. reflexivity.
    + intros r H. apply in_map_iff in H. destruct H as [q [<- _]]. reflexivity.
  - eexists. split; [reflexivity|]. split; [exact F|]. intros r H. now apply N.
Qed.
Print Assumptions C220_array.
(** ... otherwise the rows of all IDs (pages of as many IDs as there are), whatever ID is asked for. *)
Theorem C220_array_all_refuted : forall V multi sid (tbl : list (prow V)) ids start x, (Z.of_nat (length ids) <= x)%Z ->
  get_nids_iter_any multi sid tbl ids (NArr x []) start = get_nids_iter_any multi sid tbl ids (NInt (Z.of_nat (length ids))) start.
Proof.
  intros V multi sid tbl ids start x H. cbn [get_nids_iter_any]. replace (x <? Z.of_nat (length ids))%Z with false by (symmetry; now apply Z.ltb_ge).
  replace (Z.of_nat (length ids) <? 0)%Z with false by (symmetry; apply Z.ltb_ge; lia). now rewrite Nat2Z.id.
Qed.
Print Assumptions C220_array_all_refuted.

(** A negative start counts from the end: the last k IDs, in pages of n. *)
Theorem C220_last : forall V multi sid (tbl : list (prow V)) ids n k,
  numeric tbl -> NoDup ids -> (0 < n)%nat -> (0 < k <= length ids)%nat ->
  (multi = false \/ (Nat.min (length ids) n <= 10)%nat \/ Nat.divide 10 (Nat.min (length ids) n)) ->
  exists pages gs, get_nids_iter_any multi sid tbl ids (NInt (Z.of_nat n)) (Some (- Z.of_nat k)%Z) = (pages, None) /\
    Paged n (skipn (length ids - k) ids) gs /\
    Forall2 (fun p g => Permutation.Permutation (map content p) (rows_of tbl g) /\ (ordered tbl ids -> map content p = rows_of tbl g)) pages gs.
Proof.
  intros V multi sid tbl ids n k Hn Hd H0 Hk Hm. cbn [get_nids_iter_any]. replace (Z.of_nat n <? 0)%Z with false by (symmetry; apply Z.ltb_ge; lia).
  rewrite Nat2Z.id. unfold slice_start. replace (- Z.of_nat k <? 0)%Z with true by (symmetry; apply Z.ltb_lt; lia).
  replace (Z.to_nat (Z.of_nat (length ids) + - Z.of_nat k)) with (length ids - k)%nat by lia.
  destruct (C64_default_chunks V multi sid tbl ids n (Some (length ids - k)%nat) Hn Hd H0) as [pages [gs [E [P [F _]]]]].
  - cbv zeta. lia.
  - exact Hm.
  - exists pages, gs. split; [exact E|]. split; [exact P|exact F].
Qed.
Print Assumptions C220_last.
(** A negative number of IDs: no page (and get_nids a StopIteration), instead of an error. *)
Theorem C220_negative : forall V multi sid (tbl : list (prow V)) ids n, (n < 0)%Z ->
  get_nids_iter_any multi sid tbl ids (NInt n) None = ([], None).
Proof. intros V multi sid tbl ids n H. cbn [get_nids_iter_any]. replace (n <? 0)%Z with true by (symmetry; now apply Z.ltb_lt). reflexivity. Qed.
Print Assumptions C220_negative.

(** three IDs; ID 5 is asked for, all rows are returned *)
Example C220_example :
  let t := [mkrow 1 false 10; mkrow 2 false 20; mkrow 5 false 50]%Z in
  numeric t /\
  get_nids_iter_any true false t [1; 2; 5]%Z (NArr 2 []) None = ([[mkrow 2 false 20]]%Z, None) /\
  get_nids_iter_any true true t [1; 2; 5]%Z (NArr 2 []) None = ([[mkrow 2 true 20]]%Z, None) /\
  get_nids_iter_any true false t [1; 2; 5]%Z (NArr 5 []) None = ([t], None) /\
  get_nids_iter_any true false t [1; 2; 5]%Z (NList [1; 2]%Z) None = ([], Some TypeError) /\
  get_nids_iter_any true false t [1; 2; 5]%Z (NInt 1) (Some (-2)%Z) = ([[mkrow 2 false 20]; [mkrow 5 false 50]]%Z, None).
Proof.
  cbv zeta. split; [intros r [<-|[<-|[<-|[]]]]; reflexivity|]. repeat split; reflexivity.
Qed.
