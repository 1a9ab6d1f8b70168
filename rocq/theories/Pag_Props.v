(** Paged access to stored results (C64, C99) *)
From Coq Require Import String Arith ZArith Bool Lia Permutation Sorted List.
From Verif Require Import Base Base_Proofs Pag_Model Pag_Spec Pag_Proofs.
Import ListNotations.

(** ** C64: every ID once, n per page *)
(** If the read-chunk size divides the page size (after it has been limited to
    the number of stored IDs), the IDs from [start] on are divided into pages
    of n; page by page the rows of exactly these IDs are returned (in the order
    of the IDs if the table is stored in this order), and all but the last page
    show names instead of numbers if this is requested. *)
Theorem C64_dividing_chunks : forall V multi sid (tbl : list (prow V)) ids n start rc,
  let s := match start with Some k => k | None => 0 end in
  numeric tbl -> NoDup ids -> 0 < n -> s < length ids -> 0 < rc -> Nat.divide rc (Nat.min (length ids) n) ->
  exists pages gs, get_nids_iter multi sid tbl ids n start (Some rc) = (pages, None) /\ Paged n (skipn s ids) gs /\
    Forall2 (fun p g => Permutation (map content p) (rows_of tbl g) /\ (ordered tbl ids -> map content p = rows_of tbl g)) pages gs /\
    (forall a p b r, pages = a ++ p :: b -> b <> [] -> In r p -> p_named r = sid).
Proof.
  intros V multi sid tbl ids n start rc s H1 H2 H3 H4 H5 H6.
  destruct (iter_divides multi sid tbl ids n start rc H1 H2 H3 H4 H5 H6) as (pages & cs & E & _ & G & gs & P & F & N).
  exists pages, gs. unfold get_nids_iter. rewrite G, E. auto.
Qed.
Print Assumptions C64_dividing_chunks.

(** the same for the default read-chunk size, for tables without MultiIndex,
    for pages of at most 10 IDs and for multiples of 10 *)
Theorem C64_default_chunks : forall V multi sid (tbl : list (prow V)) ids n start,
  let s := match start with Some k => k | None => 0 end in
  numeric tbl -> NoDup ids -> 0 < n -> s < length ids ->
  (multi = false \/ Nat.min (length ids) n <= 10 \/ Nat.divide 10 (Nat.min (length ids) n)) ->
  exists pages gs, get_nids_iter multi sid tbl ids n start None = (pages, None) /\ Paged n (skipn s ids) gs /\
    Forall2 (fun p g => Permutation (map content p) (rows_of tbl g) /\ (ordered tbl ids -> map content p = rows_of tbl g)) pages gs /\
    (forall a p b r, pages = a ++ p :: b -> b <> [] -> In r p -> p_named r = sid).
Proof.
  intros V multi sid tbl ids n start s H1 H2 H3 H4 H5. set (n' := Nat.min (length ids) n) in *.
  set (rc := if multi then Nat.min 10 n' else n').
  assert (Hrc : 0 < rc) by (unfold rc, n'; destruct multi; lia).
  assert (Hd : Nat.divide rc n').
  { unfold rc. destruct multi; [|apply Nat.divide_refl]. destruct H5 as [H5|[H5|H5]]; [discriminate|rewrite (Nat.min_r 10) by lia; apply Nat.divide_refl|].
    destruct (Nat.le_gt_cases n' 10); [rewrite (Nat.min_r 10) by lia; apply Nat.divide_refl|rewrite (Nat.min_l 10) by lia; exact H5]. }
  destruct (iter_divides multi sid tbl ids n start rc H1 H2 H3 H4 Hrc Hd) as (pages & cs & E & _ & G & gs & P & F & N).
  exists pages, gs. unfold get_nids_iter. fold n'. fold rc. rewrite G. fold n' in E. rewrite E. auto.
Qed.
Print Assumptions C64_default_chunks.

(** a table with one row per ID *)
Definition one_row_each (ids : list Z) : list (prow Z) := map (fun i => mkrow i false (i * 2)%Z) ids.
(** IDs 0, ..., k-1 *)
Definition ids_to (k : nat) : list Z := map Z.of_nat (seq 0 k).

Example C64_example :
  map (map p_id) (fst (get_nids_iter true false (one_row_each (ids_to 7)) (ids_to 7) 3 (Some 1) None)) = [[1; 2; 3]; [4; 5; 6]]%Z /\
  map (map p_id) (fst (get_nids_iter true false (one_row_each (ids_to 25)) (ids_to 25) 20 None None)) = [ids_to 20; [20; 21; 22; 23; 24]]%Z /\
  map (map p_id) (fst (get_nids_iter true false (one_row_each (ids_to 7)) (ids_to 7) 4 None (Some 2))) = [[0; 1; 2; 3]; [4; 5; 6]]%Z.
Proof. repeat split; vm_compute; reflexivity. Qed.

(** In all other cases of the default (tables with MultiIndex, more than 10
    IDs per page, not a multiple of 10): an ID appears on two pages or the
    iteration ends with an exception - whatever the table. *)
Theorem C64_default_refuted : forall V sid (tbl : list (prow V)) ids n, let n' := Nat.min (length ids) n in
  numeric tbl -> NoDup ids -> (forall x, In x ids -> on_page x tbl) -> 10 < n' -> n' mod 10 <> 0 ->
  let '(pages, e) := get_nids_iter true sid tbl ids n None None in
  e <> None \/ exists p1 p2 rest x, pages = p1 :: p2 :: rest /\ on_page x p1 /\ on_page x p2.
Proof.
  intros V sid tbl ids n n' Hnum ND Hall Hn Hr. unfold get_nids_iter. fold n'. rewrite (Nat.min_l 10) by lia.
  destruct (chunks_ok 10 ids) as (cs & Ec & Pc); [lia|]. unfold get_vals. cbn [Nat.eqb negb andb]. rewrite skipn_O, Ec. cbn [bind].
  set (q := n' / 10). assert (Hq : 0 < q) by (unfold q; apply Nat.div_str_pos; lia).
  assert (Hd : n' = 10 * q + n' mod 10) by (apply Nat.div_mod; lia).
  assert (Hlen : q < length cs).
  { rewrite (chunks_length 10 ids cs Ec). assert (n' <= length ids) by (unfold n'; lia). apply Nat.lt_le_trans with ((10 * q + 1 + 9) / 10).
    - replace (10 * q + 1 + 9) with (10 * (q + 1)) by lia. rewrite Nat.mul_comm, Nat.div_mul by lia. lia.
    - apply Nat.div_le_mono; lia. }
  destruct (skipn q cs) as [|c rest] eqn:Es; [apply (f_equal (@length _)) in Es; rewrite skipn_length in Es; cbn [length] in Es; lia|].
  set (g := firstn q cs). assert (Ecs : cs = g ++ c :: rest) by (unfold g; rewrite <- Es; symmetry; apply firstn_skipn).
  assert (Lg : length g = q) by (unfold g; rewrite firstn_length; lia). clearbody g.
  assert (Hids : forall x, In x (concat g ++ c) -> In x ids).
  { intros x Hx. destruct Pc as [<- _]. rewrite Ecs, concat_app. cbn [concat]. apply in_app_or in Hx. apply in_or_app. destruct Hx; [left|right; apply in_or_app; left]; assumption. }
  rewrite Ecs. change (@nil (list (prow V))) with (map (read_ids tbl) []).
  rewrite (loop_rest_page sid tbl ids n' 10 Hnum ltac:(lia) Hr Hq g c rest 0 [] g eq_refl eq_refl ltac:(cbn; exact Hq) Lg Hids).
  set (p1 := page1 sid tbl n' g c). destruct (page_loop true sid ids n' 10 (n' / 10) [kept n' p1] (map (read_ids tbl) rest)) as [ps e] eqn:E.
  destruct (loop_keeps true sid ids n' 10 _ _ [kept n' p1] ps e ltac:(discriminate) E) as [He|(p2 & ps' & -> & K)]; [left; exact He|]. right.
  (* the first page has more IDs than are skipped *)
  assert (Hlev : n' mod 10 < length (levels p1)).
  { assert (Hmod : n' mod 10 < 10) by (apply Nat.mod_upper_bound; lia).
    assert (Hcg : 10 <= length (concat g)).
    { destruct g as [|g0 g']; [cbn [length] in Lg; lia|]. destruct Pc as [_ Pc]. destruct (Pc [] g0 (g' ++ c :: rest)) as [_ L]; [rewrite Ecs; reflexivity|].
      cbn [concat]. rewrite app_length, L; [lia|]. destruct g'; discriminate. }
    assert (Hinc : incl (concat g) (levels p1)).
    { intros x Hx. apply levels_in. unfold p1, page1. destruct (Hall x (Hids x (in_or_app _ _ _ (or_introl Hx)))) as (r & Hin & Er).
      exists (mkrow (p_id r) sid (p_val r)). split; [|exact Er]. unfold shown. apply in_map_iff. exists r. split; [reflexivity|]. apply in_or_app. left.
      unfold frame. apply in_concat. apply in_concat in Hx. destruct Hx as (c0 & Hc0 & Hx). exists (read_ids tbl c0). split; [apply in_map; exact Hc0|]. apply read_in. rewrite Er. auto. }
    assert (NDg : NoDup (concat g)).
    { apply (nodup_part [] (concat g) (c ++ concat rest)). destruct Pc as [Pc _]. rewrite Ecs, concat_app in Pc. cbn [concat] in Pc. cbn [app]. rewrite Pc. exact ND. }
    pose proof (NoDup_incl_length NDg Hinc). lia. }
  destruct (skipn (n' mod 10) (levels p1)) as [|x xs] eqn:Ex; [apply (f_equal (@length _)) in Ex; rewrite skipn_length in Ex; cbn [length] in Ex; lia|].
  assert (Hx1 : on_page x p1). { apply levels_in. rewrite <- (firstn_skipn (n' mod 10)). apply in_or_app. right. rewrite Ex. left. reflexivity. }
  exists p1, p2, ps', x. split; [reflexivity|]. split; [exact Hx1|]. apply K. destruct Hx1 as (r & Hin & Er). exists r. split; [|exact Er].
  cbn [concat]. rewrite app_nil_r. unfold kept. apply filter_In. split; [exact Hin|]. rewrite Ex, Er. cbn. rewrite Z.eqb_refl. reflexivity.
Qed.
Print Assumptions C64_default_refuted.

Example C64_default_refuted_example :
  let '(pages, e) := get_nids_iter true false (one_row_each (ids_to 40)) (ids_to 40) 15 None None in
  e = None /\ nth_error (map (map p_id) pages) 0 = Some (ids_to 15) /\
  nth_error (map (map p_id) pages) 1 = Some [5; 6; 7; 8; 9; 10; 11; 12; 13; 14; 20; 21; 22; 23; 24; 25; 26; 27; 28; 29; 30; 31; 32; 33; 34]%Z.
Proof. vm_compute. repeat split; reflexivity. Qed.

(** names are requested, but the last page shows numbers *)
Theorem C64_names_refuted : exists (tbl : list (prow Z)) ids pages p r, numeric tbl /\ NoDup ids /\
  get_nids_iter true true tbl ids 4 None (Some 2) = (pages ++ [p], None) /\ In r p /\ p_named r = false.
Proof.
  exists (one_row_each (ids_to 6)), (ids_to 6), [map (fun i => mkrow i true (i * 2)%Z) (ids_to 4)]. eexists. eexists. split.
  - intros r H. apply in_map_iff in H. destruct H as (i & <- & _). reflexivity.
  - split; [|split; [vm_compute; reflexivity|split; [left; reflexivity|reflexivity]]].
    cbn. repeat constructor; cbn; intuition discriminate.
Qed.
Print Assumptions C64_names_refuted.

(** ** the first page of the default (get_nids) *)
(** For MultiIndex tables whose IDs are stored in ascending order with at least
    one row each, pages of more than 10 IDs: get_nids returns the rows of the
    first n IDs from [start] on (all if there are fewer) - except that it
    raises RuntimeError if the number of IDs left fills exactly the whole
    chunks (up to 9 fewer). *)
Theorem C64_get_nids : forall V sid (tbl : list (prow V)) ids n start,
  let s := match start with Some k => k | None => 0 end in
  let n' := Nat.min (length ids) n in let m := length ids - s in let q := n' / 10 in
  numeric tbl -> StronglySorted Z.lt ids -> (forall x, In x ids -> on_page x tbl) -> s < length ids -> 10 < n' -> n' mod 10 <> 0 ->
  (10 * (q - 1) < m <= 10 * q -> get_nids true sid tbl ids n start None = Err RuntimeError) /\
  (~ 10 * (q - 1) < m <= 10 * q -> exists p, get_nids true sid tbl ids n start None = Ok p /\
     Permutation (map content p) (rows_of tbl (firstn n (skipn s ids)))).
Proof.
  intros V sid tbl ids n start s n' m q Hnum Hs Hall Hsl Hn Hr. unfold get_nids, get_nids_iter. fold n'. rewrite (Nat.min_l 10) by lia.
  assert (ND : NoDup ids).
  { clear - Hs. induction ids as [|x l IH]; constructor; inversion Hs as [|? ? H1 H2]; subst; [|auto]. intros X. rewrite Forall_forall in H2. specialize (H2 x X). lia. }
  destruct (chunks_ok 10 (skipn s ids)) as (cs & Ec & Pc); [lia|]. unfold get_vals. fold s. destruct (Nat.ltb_spec s (length ids)); [|lia]. rewrite andb_false_r, Ec. cbn [bind].
  assert (Hq : 0 < q) by (unfold q; apply Nat.div_str_pos; lia).
  assert (Hd : n' = 10 * q + n' mod 10) by (apply Nat.div_mod; lia). assert (Hmod : n' mod 10 < 10) by (apply Nat.mod_upper_bound; lia).
  assert (Lm : length (skipn s ids) = m) by apply skipn_length.
  assert (Lc : length cs = (m + 10 - 1) / 10) by (rewrite (chunks_length 10 _ cs Ec), Lm; reflexivity).
  assert (Hdm : m + 10 - 1 = 10 * length cs + (m + 10 - 1) mod 10) by (rewrite Lc; apply Nat.div_mod; lia).
  assert (Hmm : (m + 10 - 1) mod 10 < 10) by (apply Nat.mod_upper_bound; lia).
  change (@nil (list (prow V))) with (map (read_ids tbl) []).
  assert (NDs : NoDup (skipn s ids)).
  { apply (nodup_part (firstn s ids) (skipn s ids) []). rewrite app_nil_r, firstn_skipn. exact ND. }
  split; intros Hc.
  - assert (length cs = q) by lia. rewrite (loop_rest_error sid tbl ids n' 10 ltac:(lia) Hr Hq cs 0 []); [reflexivity|reflexivity| |cbn; assumption].
    intros ->. cbn in *. lia.
  - destruct (Nat.le_gt_cases (length cs) q) as [L|L].
    + assert (length cs < q) by lia. rewrite (loop_rest_short sid tbl ids n' 10 ltac:(lia) Hr Hq cs 0 [] eq_refl) by (cbn; assumption).
      cbn [app]. destruct cs as [|c0 cs0]; [cbn in *; lia|]. eexists. split; [reflexivity|].
      rewrite firstn_all2 by lia. destruct Pc as [Pc _]. rewrite <- Pc. apply frame_perm. rewrite Pc. exact NDs.
    + destruct (skipn q cs) as [|c rest] eqn:Es; [apply (f_equal (@length _)) in Es; rewrite skipn_length in Es; cbn [length] in Es; lia|].
      set (g := firstn q cs). assert (Ecs : cs = g ++ c :: rest) by (unfold g; rewrite <- Es; symmetry; apply firstn_skipn).
      assert (Lg : length g = q) by (unfold g; rewrite firstn_length; lia). clearbody g.
      assert (Hsk : forall x, In x (skipn s ids) -> In x ids) by (intros x Hx; rewrite <- (firstn_skipn s ids); apply in_or_app; right; exact Hx).
      assert (Hids : forall x, In x (concat g ++ c) -> In x ids).
      { intros x Hx. apply Hsk. destruct Pc as [<- _]. rewrite Ecs, concat_app. cbn [concat]. apply in_app_or in Hx. apply in_or_app. destruct Hx; [left|right; apply in_or_app; left]; assumption. }
      rewrite Ecs.
      rewrite (loop_rest_page sid tbl ids n' 10 Hnum ltac:(lia) Hr Hq g c rest 0 [] g eq_refl eq_refl ltac:(cbn; exact Hq) Lg Hids).
      destruct (page_loop true sid ids n' 10 (n' / 10) _ (map (read_ids tbl) rest)) as [ps e]. eexists. split; [reflexivity|].
      unfold page1. rewrite content_shown, map_app.
      assert (Sc : StronglySorted Z.lt c).
      { assert (S1 : StronglySorted Z.lt (skipn s ids)) by (apply sorted_skipn; exact Hs).
        destruct Pc as [Pc _]. rewrite Ecs, concat_app in Pc. cbn [concat] in Pc. rewrite <- Pc in S1. clear - S1. revert S1. generalize (concat g). intros l S1.
        assert (S2 : StronglySorted Z.lt (c ++ concat rest)) by (induction l as [|x l IH]; [exact S1|apply IH; inversion S1; assumption]). clear S1.
        induction c as [|x c IH]; constructor; inversion S2 as [|? ? A1 A2]; subst; [apply IH, A1|]. rewrite Forall_forall in *. intros y Hy. apply A2, in_or_app. left. exact Hy. }
      unfold head_rows. rewrite (levels_read tbl c Sc) by (intros x Hx; apply Hall, Hids, in_or_app; right; exact Hx).
      rewrite (read_filter tbl c _ (firstn_incl _ c)).
      assert (Lcg : length (concat g) = 10 * q).
      { assert (Hlen : forall x, In x g -> length x = 10).
        { intros x Hx. apply in_split in Hx. destruct Hx as (u & v & Eg). destruct Pc as [_ Pc]. destruct (Pc u x (v ++ c :: rest)) as [_ L']; [rewrite Ecs, Eg, <- app_assoc; reflexivity|]. apply L'. destruct v; discriminate. }
        rewrite <- Lg. clear - Hlen. induction g as [|x g IH]; [reflexivity|]. cbn [concat length]. rewrite app_length, (Hlen x (or_introl eq_refl)), IH; [lia|]. intros; apply Hlen; right; auto. }
      assert (Ef : firstn n (skipn s ids) = concat g ++ firstn (n' mod 10) c).
      { transitivity (firstn n' (skipn s ids)).
        - unfold n'. destruct (Nat.min_spec (length ids) n) as [[? ->]|[? ->]]; [|reflexivity]. rewrite !firstn_all2 by lia. reflexivity.
        - destruct Pc as [Pc Pc2]. rewrite <- Pc, Ecs, concat_app, firstn_app. cbn [concat]. rewrite firstn_all2 by lia. f_equal.
          rewrite Lcg, firstn_app. replace (n' - 10 * q) with (n' mod 10) by lia.
          destruct (Nat.le_gt_cases (n' mod 10) (length c)) as [L2|L2]; [replace (n' mod 10 - length c) with 0 by lia; rewrite firstn_O; apply app_nil_r|].
          destruct rest as [|c2 rest]; [cbn; rewrite firstn_nil; apply app_nil_r|].
          destruct (Pc2 g c (c2 :: rest) Ecs) as [_ L3]. rewrite L3 in L2 by discriminate. lia. }
      rewrite Ef. replace (concat g ++ firstn (n' mod 10) c) with (concat (g ++ [firstn (n' mod 10) c])) by (rewrite concat_app; cbn; rewrite app_nil_r; reflexivity).
      replace (map content (frame tbl g) ++ map content (read_ids tbl (firstn (n' mod 10) c))) with (map content (frame tbl (g ++ [firstn (n' mod 10) c]))).
      * apply frame_perm. rewrite concat_app. cbn [concat]. rewrite app_nil_r, <- Ef.
        apply (nodup_part [] _ (skipn n (skipn s ids))). cbn [app]. rewrite firstn_skipn. exact NDs.
      * unfold frame. rewrite map_app, concat_app, map_app. cbn [map concat]. rewrite app_nil_r. reflexivity.
Qed.
Print Assumptions C64_get_nids.

Example C64_get_nids_example : let t := one_row_each (ids_to 25) in
  (exists p, get_nids true false t (ids_to 25) 15 (Some 12) None = Ok p /\ map p_id p = map Z.of_nat (seq 12 13)) /\
  get_nids true false t (ids_to 25) 15 (Some 16) None = Err RuntimeError.
Proof. split; [eexists; split; vm_compute; reflexivity|vm_compute; reflexivity]. Qed.

(** ** C99: the results of one ID *)
Lemma get_loc_in n ids : In n ids -> exists k rest, get_loc n ids = Ok k /\ skipn k ids = n :: rest /\ k < length ids.
Proof.
  induction ids as [|x ids IH]; intros H; [destruct H|]. cbn. destruct (Z.eqb_spec n x) as [e|N].
  - exists 0, ids. subst. repeat split. cbn. lia.
  - destruct IH as (k & rest & E1 & E2 & E3); [destruct H; [congruence|assumption]|]. rewrite E1. exists (S k), rest. repeat split; [exact E2|cbn; lia].
Qed.

(** exactly the rows of this ID, in the order of the table, for every stored
    number, with and without names *)
Theorem C99_single_id : forall V multi sid (tbl : list (prow V)) ids n, numeric tbl -> In n ids ->
  exists p, get_id multi sid tbl ids n = Ok p /\ map content p = rows_of tbl [n] /\ (forall r, In r p -> p_named r = sid).
Proof.
  intros V multi sid tbl ids n Hnum Hn. destruct (get_loc_in n ids Hn) as (k & rest & E1 & E2 & E3).
  unfold get_id. rewrite E1. cbn [bind]. unfold get_nids, get_nids_iter. rewrite (Nat.min_r _ 1) by lia.
  replace (if multi then Nat.min 10 1 else 1) with 1 by (destruct multi; reflexivity).
  destruct (chunks_ok 1 (skipn k ids)) as (cs & Ec & Pc); [lia|]. unfold get_vals. destruct (Nat.ltb_spec k (length ids)); [|lia]. rewrite andb_false_r, Ec. cbn [bind].
  assert (X : exists cs', cs = [n] :: cs').
  { destruct cs as [|c cs]; [destruct Pc as [Pc _]; rewrite E2 in Pc; discriminate|]. apply paged_tail in Pc. destruct Pc as (Pc & _ & L & _). rewrite E2 in Pc.
    destruct c as [|x [|]]; cbn in L; try lia. injection Pc as <- _. eauto. }
  destruct X as (cs' & ->). cbn [map page_loop]. change (1 / 1) with 1. change ((0 + 1) mod 1) with 0. change (1 mod 1) with 0. cbn [Nat.eqb negb app].
  change (concat [read_ids tbl [n]]) with (frame tbl [[n]]). rewrite (frame_names sid tbl ids Hnum); [|intros x [<-|[]]; exact Hn].
  destruct (page_loop multi sid ids 1 1 1 [] _) as [ps e]. eexists. split; [reflexivity|]. split.
  - rewrite content_shown. unfold frame. cbn [map concat]. rewrite app_nil_r. apply map_read.
  - intros r Hr. apply in_map_iff in Hr. destruct Hr as (r' & <- & _). reflexivity.
Qed.
Print Assumptions C99_single_id.

(** access by name: if no name occurs twice *)
Theorem C99_single_name : forall V multi sid (tbl : list (prow V)) names n ID, numeric tbl -> NoDup (map snd names) -> In (n, ID) names ->
  exists p, get_id_named multi sid tbl names ID = Ok p /\ map content p = rows_of tbl [n].
Proof.
  intros V multi sid tbl names n ID Hnum ND Hin.
  assert (E : ID_to_IDnum names ID = Ok n).
  { unfold ID_to_IDnum. induction names as [|[k s] names IH]; [destruct Hin|]. cbn. inversion ND as [|? ? N1 N2]; subst. destruct (String.eqb_spec s ID) as [e|N].
    - destruct Hin as [Hin|Hin]; [injection Hin as -> _; reflexivity|]. exfalso. apply N1. apply in_map_iff. exists (n, ID). auto.
    - destruct Hin as [Hin|Hin]; [injection Hin as _ ->; congruence|]. apply IH; assumption. }
  unfold get_id_named. rewrite E. cbn [bind].
  destruct (C99_single_id V multi sid tbl (map fst names) n Hnum) as (p & E1 & E2 & _); [apply in_map_iff; exists (n, ID); auto|]. eauto.
Qed.
Print Assumptions C99_single_name.

Example C99_example : let t := [mkrow 4 false 10; mkrow 7 false 11; mkrow 4 false 12] in
  get_id true true t [4; 7]%Z 4 = Ok [mkrow 4 true 10; mkrow 4 true 12] /\
  get_id_named true false t [(4, "a"); (7, "b")]%Z%string "b" = Ok [mkrow 7 false 11].
Proof. split; vm_compute; reflexivity. Qed.

(** Unknown IDs and names are reported. *)
Theorem C99_unknown : forall V multi sid (tbl : list (prow V)) names n ID,
  (~ In n (map fst names) -> get_id multi sid tbl (map fst names) n = Err KeyError) /\
  (~ In ID (map snd names) -> get_id_named multi sid tbl names ID = Err IndexError).
Proof.
  intros V multi sid tbl names n ID. split; intros H.
  - unfold get_id. assert (E : get_loc n (map fst names) = Err KeyError).
    { clear - H. induction names as [|[k s] names IH]; [reflexivity|]. cbn in *. destruct (Z.eqb_spec n k) as [e|N]; [exfalso; apply H; left; congruence|]. rewrite IH by tauto. reflexivity. }
    rewrite E. reflexivity.
  - unfold get_id_named, ID_to_IDnum. assert (E : filter (fun p : Z * string => String.eqb (snd p) ID) names = []).
    { clear - H. induction names as [|[k s] names IH]; [reflexivity|]. cbn in *. destruct (String.eqb_spec s ID) as [e|N]; [exfalso; apply H; left; exact e|]. apply IH. tauto. }
    rewrite E. reflexivity.
Qed.
Print Assumptions C99_unknown.

Example C99_unknown_example : get_id true true [mkrow 4 false 10] (map fst [(4%Z, "a"%string)]) 5 = Err KeyError /\
  get_id_named true true [mkrow 4 false 10] [(4%Z, "a"%string)] "A" = Err IndexError.
Proof. split; reflexivity. Qed.
